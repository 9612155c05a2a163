(** The words no system has right, and the totals. *)
From Coq Require Import List Arith ZArith NArith QArith Bool Permutation Lia.
From Verif Require Import Base Text_Model Text_Spec NetDp_Model Word_Model Order_Model Order_Spec Order_Proofs1 Path_Model Path_Spec Scores_Model Scores_Spec Alex_Model Alex_Spec
  Alex_Proofs1 Alex_Proofs2 Alex_Proofs3 Dtl_Model Cor_Model Cor_Spec Cor_Proofs1 Cor_Proofs2 Cor_Proofs3.
Import ListNotations.
Local Open Scope res_scope.
Local Open Scope nat_scope.

Fixpoint ors_all (a : list bool) (bs : list (list bool)) : list bool := match bs with [] => a | b :: r => ors_all (ors a b) r end.
Lemma ors_len a : forall b, length a = length b -> length (ors a b) = length a.
Proof. induction a as [|x a IH]; intros [|y b] L; cbn in *; try discriminate; [reflexivity|]. rewrite IH; lia. Qed.
Lemma ors_nth a : forall b k, length a = length b -> nth k (ors a b) false = nth k a false || nth k b false.
Proof. induction a as [|x a IH]; intros [|y b] k L; cbn in *; try discriminate; destruct k; try reflexivity. apply IH. lia. Qed.
Lemma ors_all_nth bs : forall a k, Forall (fun b => length b = length a) bs -> nth k (ors_all a bs) false = nth k a false || existsb (fun b => nth k b false) bs.
Proof.
  induction bs as [|b bs IH]; intros a k F; cbn [ors_all existsb]; [rewrite orb_false_r; reflexivity|]. inversion F; subst. rewrite IH, ors_nth by (rewrite ?ors_len; congruence || (eapply Forall_impl; [|exact H2]; cbn; intros; rewrite ors_len; congruence)).
  rewrite orb_assoc. reflexivity.
Qed.
Lemma ors_all_len bs : forall a, Forall (fun b => length b = length a) bs -> length (ors_all a bs) = length a.
Proof.
  induction bs as [|b bs IH]; intros a F; cbn [ors_all]; [reflexivity|]. inversion F; subst. rewrite IH; [apply ors_len; congruence|]. eapply Forall_impl; [|exact H2]. cbn. intros. rewrite ors_len; congruence.
Qed.
Fixpoint keep (ws : list (list N)) (bs : list bool) : list (list N) :=
  match ws, bs with w :: ws', b :: bs' => (if b then [] else [w]) ++ keep ws' bs' | _, _ => [] end.
Lemma keep_seq ws : forall bs, length bs = length ws -> keep ws bs = flat_map (fun k => if nth k bs false then [] else [nth k ws []]) (seq 0 (length ws)).
Proof.
  induction ws as [|w ws IH]; intros [|b bs] L; cbn in L; try discriminate; [reflexivity|]. cbn [keep length seq flat_map nth]. f_equal.
  rewrite IH by lia. rewrite <- seq_shift, flat_map_concat_map, flat_map_concat_map, map_map. reflexivity.
Qed.
Lemma flat_ext {A B} (f g : A -> list B) l : (forall x, f x = g x) -> flat_map f l = flat_map g l.
Proof. intros H. induction l as [|x l IH]; cbn; [reflexivity|]. rewrite H, IH. reflexivity. Qed.
Lemma refs_len (l : list wstep) : length (map snd (verdicts l)) = length (refs l).
Proof. unfold refs. rewrite !map_length. reflexivity. Qed.
Lemma missed_keep (l0 : list wstep) (ls : list (list wstep)) : Forall (fun l => refs l = refs l0) ls ->
  missed (l0 :: ls) = keep (refs l0) (ors_all (map snd (verdicts l0)) (map (fun l => map snd (verdicts l)) ls)).
Proof.
  intros F. unfold missed. cbn [hd]. cbv zeta.
  assert (F' : Forall (fun b => length b = length (map snd (verdicts l0))) (map (fun l => map snd (verdicts l)) ls)).
  { apply Forall_map. eapply Forall_impl; [|exact F]. cbn. intros l E. rewrite !refs_len, E. reflexivity. }
  rewrite keep_seq by (rewrite ors_all_len by exact F'; apply refs_len). apply flat_ext. intros k. rewrite ors_all_nth by exact F'. cbn [existsb].
  replace (existsb (fun b => nth k b false) (map (fun l => map snd (verdicts l)) ls)) with (existsb (right_at k) ls); [reflexivity|].
  clear. induction ls as [|l ls IH]; cbn; [reflexivity|]. rewrite IH. reflexivity.
Qed.

Section Enc.
Variable e : enc.
Lemma mark_all_ok : forall ls m, sane m -> Forall (well_formed e) (words m) -> Forall (good e) ls -> Forall (fun l => words m = refs l) ls ->
  exists m', mark_all e m ls = Ok m' /\ sane m' /\ words m' = words m /\ marks m' = ors_all (marks m) (map (fun l => map snd (verdicts l)) ls).
Proof.
  induction ls as [|l ls IH]; intros m S W G R; cbn [mark_all map ors_all]; [exists m; auto|]. inversion G; subst. inversion R; subst.
  destruct (mark_ok e (Datatypes.S (length m)) m l) as (m1 & -> & S1 & W1 & M1 & _); try assumption; [lia|]. cbn [rbind]. rewrite <- M1. rewrite <- W1. apply IH; try assumption; rewrite W1; assumption.
Qed.
Lemma start_ok (l : list wstep) : good e l -> let m := map (fun s => (s, snd s)) l in sane m /\ words m = refs l /\ marks m = map snd (verdicts l).
Proof.
  intros [W _]. cbv zeta. induction W as [|s l H W (A & B & C)]; [repeat split; constructor|]. cbn [map].
  destruct s as [[[a|] b] ev]; destruct ev; cbn in H; try (exfalso; destruct H; congruence);
    (split; [constructor; [cbn; split; discriminate || reflexivity|exact A]|split; [cbn; f_equal; exact B|cbn; f_equal; exact C]]) ||
    (split; [constructor; [cbn; split; reflexivity|exact A]|split; [exact B|exact C]]).
Qed.
(** the lexicon after words were counted: they are there, but the counts are those of other words *)
Lemma count_missed_ok vs x so v : inv e vs vs x so -> well_formed e v ->
  exists x' so' u, count_missed e x v = Ok x' /\ inv e (vs ++ [u]) (vs ++ [u]) x' so' /\ (In v vs -> In u vs) /\ (~ In v vs -> u = v).
Proof.
  intros H W. unfold count_missed, lex_find. destruct H.
  destruct (index_ok e vs x so i_num i_str i_sort i_perm i_ss i_wf v W) as (r & E & R). rewrite E. cbn [rbind]. destruct r as [p|p].
  - destruct R as [Hp Ev]. destruct (Z.ltb_spec (Z.of_nat p) 0); [lia|]. cbn [rbind]. rewrite Nat2Z.id.
    rewrite (get_ok _ p 0%Z) by lia. cbn [rbind]. destruct (set_ok (x_a x) p (nth p (x_a x) 0 + 1)%Z 0%Z) as (a & -> & La & Ni & Na); [lia|]. cbn [rbind].
    set (u := nth p (firsts vs) []). assert (Iu : In u vs) by (apply firsts_in; apply nth_In; lia).
    assert (F : firsts (vs ++ [u]) = firsts vs) by (rewrite firsts_snoc; destruct (in_dec (list_eq_dec N.eq_dec) u vs); [apply app_nil_r|contradiction]).
    eexists _, so, u. split; [reflexivity|]. split.
    + constructor; cbn; rewrite ?F; try assumption; try lia.
      * apply Forall_app; split; [assumption|]. constructor; [|constructor]. rewrite Forall_forall in i_wf. apply i_wf; exact Iu.
      * intros j Hj. rewrite times_snoc. destruct (Nat.eq_dec j p) as [->|Ne].
        -- rewrite Ni, i_a by lia. unfold u. destruct (list_eq_dec N.eq_dec (nth p (firsts vs) []) (nth p (firsts vs) [])); [lia|congruence].
        -- rewrite Na, i_a by lia. destruct (list_eq_dec N.eq_dec u (nth j (firsts vs) [])) as [X|]; [|f_equal; lia].
           exfalso. apply Ne. apply (proj1 (NoDup_nth (firsts vs) []) (firsts_nodup _)); [lia|lia|]. symmetry; exact X.
      * apply incl_refl.
      * intros j Hj. destruct (Nat.lt_ge_cases j (x_max x)) as [Lt|Ge]; [|apply nth_overflow; lia]. rewrite Na by lia. apply i_z; exact Hj.
    + split; [auto|]. intros NI. exfalso. apply NI. eapply at_in; eassumption.
  - assert (NI : ~ In v vs) by (destruct R as (Hi & A & B); eapply not_in_at; eassumption). cbn [Z.ltb Z.compare].
    destruct (insert_ok e vs vs x so v) as (l' & so' & i & -> & Iv & Hi & Ew); [constructor; assumption|exact W|]. cbn [rbind]. clear - Iv Hi Ew NI. destruct Iv. rewrite i_num in Hi.
    destruct (set_ok (x_a l') i 0%Z 0%Z) as (a0 & -> & La0 & Ni0 & Na0); [lia|]. cbn [rbind x_a x_max x_num x_str x_b x_sort].
    rewrite (get_ok _ i 0%Z) by lia. cbn [rbind]. rewrite Ni0. destruct (set_ok a0 i (0 + 1)%Z 0%Z) as (a & -> & La & Ni & Na); [lia|]. cbn [rbind].
    eexists _, so', v. split; [reflexivity|]. split; [|split; [contradiction|reflexivity]]. constructor; cbn; try assumption; try lia.
    + intros j Hj. rewrite times_snoc. destruct (Nat.eq_dec j i) as [->|Ne].
      * rewrite Ni, Ew. unfold times. rewrite (proj1 (count_occ_not_In (list_eq_dec N.eq_dec) vs v) NI). destruct (list_eq_dec N.eq_dec v v); [reflexivity|congruence].
      * rewrite Na, Na0, i_a by lia. destruct (list_eq_dec N.eq_dec v (nth j (firsts (vs ++ [v])) [])) as [X|]; [|f_equal; lia].
        exfalso. apply Ne. apply (proj1 (NoDup_nth (firsts (vs ++ [v])) []) (firsts_nodup _)); [lia|lia|congruence].
    + apply incl_refl.
    + intros j Hj. destruct (Nat.lt_ge_cases j (x_max l')) as [Lt|Ge]; [|apply nth_overflow; lia]. rewrite Na, Na0 by lia. apply i_z; exact Hj.
Qed.
(** the counted words stand for the missed ones: the same words, as many in all *)
Definition stands (vs ms : list (list N)) : Prop := length vs = length ms /\ forall w, In w vs <-> In w ms.
Lemma stands_snoc vs ms u v : stands vs ms -> (In v vs -> In u vs) -> (~ In v vs -> u = v) -> stands (vs ++ [u]) (ms ++ [v]).
Proof.
  intros [L H] A B. split; [rewrite !app_length; cbn; lia|]. intros w. rewrite !in_app_iff. cbn [In]. rewrite <- H.
  destruct (in_dec (list_eq_dec N.eq_dec) v vs) as [I|NI].
  - split; [intros [X|[<-|[]]]; auto|intros [X|[<-|[]]]; auto].
  - rewrite (B NI). tauto.
Qed.
Lemma count_words_ok : forall m vs ms x so r0 e0, sane m -> Forall (well_formed e) (words m) -> inv e vs vs x so -> stands vs ms ->
  exists x' so' vs', count_words e x m r0 e0 = Ok (x', r0 + length (words m), e0 + length (keep (words m) (marks m)))
    /\ inv e vs' vs' x' so' /\ stands vs' (ms ++ keep (words m) (marks m)).
Proof.
  induction m as [|[[[[a|] b] ev] y] m IH]; intros vs ms x so r0 e0 S W Iv St; cbn [count_words words marks flat_map fst snd app keep length].
  - exists x, so, vs. rewrite !Nat.add_0_r, app_nil_r. auto.
  - inversion S as [|? ? Sx Sm]; subst. cbn in Sx. cbn [words flat_map fst app] in W. inversion W as [|? ? Wa Wm]; subst. fold (words m) (marks m) in *.
    destruct y; cbn [is_corr app].
    + destruct (IH vs ms x so (r0 + 1) e0 Sm Wm Iv St) as (x' & so' & vs' & -> & I' & St'). exists x', so', vs'. split; [f_equal; f_equal; f_equal; lia|]. auto.
    + cbn [value_of rbind]. destruct (count_missed_ok vs x so (w_value a) Iv Wa) as (x1 & so1 & u & -> & I1 & A & B). cbn [rbind].
      destruct (IH _ _ x1 so1 (r0 + 1) (e0 + 1) Sm Wm I1 (stands_snoc _ _ _ _ St A B)) as (x' & so' & vs' & -> & I' & St'). exists x', so', vs'. cbn [length].
      split; [f_equal; f_equal; [f_equal|]; lia|]. rewrite <- app_assoc in St'. auto.
    + destruct Sx as [_ X]. congruence.
    + cbn [value_of rbind]. destruct (count_missed_ok vs x so (w_value a) Iv Wa) as (x1 & so1 & u & -> & I1 & A & B). cbn [rbind].
      destruct (IH _ _ x1 so1 (r0 + 1) (e0 + 1) Sm Wm I1 (stands_snoc _ _ _ _ St A B)) as (x' & so' & vs' & -> & I' & St'). exists x', so', vs'. cbn [length].
      split; [f_equal; f_equal; [f_equal|]; lia|]. rewrite <- app_assoc in St'. auto.
  - inversion S as [|? ? Sx Sm]; subst. cbn in Sx. destruct Sx as [_ ->]. fold (words m) (marks m) in *. apply (IH vs ms x so r0 e0 Sm W Iv St).
Qed.
Lemma lattice_ok l0 ls vs ms x so : good e l0 -> Forall (good e) ls -> Forall (fun l => refs l = refs l0) ls -> inv e vs vs x so -> stands vs ms ->
  exists x' so' vs', lattice_error e x l0 ls = Ok (x', length (refs l0), length (missed (l0 :: ls))) /\ inv e vs' vs' x' so' /\ stands vs' (ms ++ missed (l0 :: ls)).
Proof.
  intros G Gs R Iv St. destruct (start_ok l0 G) as (S & W & M). unfold lattice_error. rewrite (missed_keep _ _ R).
  destruct (mark_all_ok ls (map (fun s => (s, snd s)) l0)) as (m & -> & Sm & Wm & Mm).
  - exact S.
  - rewrite W. apply G.
  - exact Gs.
  - eapply Forall_impl; [|exact R]. cbn. intros l E. rewrite W, E. reflexivity.
  - cbn [rbind]. destruct (count_words_ok m vs ms x so 0 0 Sm) as (x' & so' & vs' & -> & I' & St'); [rewrite Wm, W; apply G|exact Iv|exact St|].
    exists x', so', vs'. rewrite Wm, W, Mm, M in *. auto.
Qed.

(** ** rows and groups *)
(** a row that can be analysed *)
Definition ready (ps : list sentence) : Prop :=
  2 <= length ps /\ Forall (good e) (map s_steps ps) /\ same_reference (map s_steps ps).
Definition row_refs (ps : list sentence) := refs (hd [] (map s_steps ps)).
Definition row_missed (ps : list sentence) := missed (map s_steps ps).
Definition line (ps : list sentence) : list sentence * shown := (ps, Analysis (length (row_refs ps)) (length (row_missed ps))).
Lemma multi_ok ps st vs ms so : ready ps -> inv e vs vs (t_lex st) so -> stands vs ms ->
  exists x' so' vs', multi_print e (map s_steps ps) st = Ok (snd (line ps), {| t_ref := length (row_refs ps); t_err := length (row_missed ps); t_totref := t_totref st; t_toterr := t_toterr st; t_lex := x' |})
    /\ inv e vs' vs' x' so' /\ stands vs' (ms ++ row_missed ps).
Proof.
  intros (L & G & R) Iv St. destruct ps as [|p0 [|p1 ps]]; cbn in L; [lia|lia|]. unfold line, row_refs, row_missed in *. cbn [map hd snd] in *.
  inversion G as [|? ? G0 Gs]; subst.
  assert (Rr : Forall (fun l => refs l = refs (s_steps p0)) (s_steps p1 :: map s_steps ps)).
  { apply Forall_forall. intros l Hl. apply (R l). right. exact Hl. }
  cbn [multi_print]. rewrite all_same_ok; [|exact G0|exact Gs|eapply Forall_impl; [|exact Rr]; cbn; intros; congruence]. cbn [rbind].
  destruct (lattice_ok (s_steps p0) (s_steps p1 :: map s_steps ps) vs ms (t_lex st) so G0 Gs Rr Iv St) as (x' & so' & vs' & -> & I' & St').
  cbn [rbind]. exists x', so', vs'. auto.
Qed.
Lemma rows_print cs : Forall ready cs -> forall st vs ms so, inv e vs vs (t_lex st) so -> stands vs ms ->
  exists st' so' vs', print_rows e false cs true st = Ok (map line cs, st') /\ inv e vs' vs' (t_lex st') so' /\ stands vs' (ms ++ flat_map row_missed cs)
    /\ t_totref st' = t_totref st + length (flat_map row_refs cs) /\ t_toterr st' = t_toterr st + length (flat_map row_missed cs).
Proof.
  induction 1 as [|ps cs R F IH]; intros st vs ms so Iv St; cbn [print_rows map flat_map].
  - exists st, so, vs. rewrite app_nil_r, !Nat.add_0_r. auto.
  - cbn [rbind]. destruct (multi_ok ps st vs ms so R Iv St) as (x1 & so1 & vs1 & -> & I1 & St1). cbn [rbind]. cbv zeta. cbn [t_ref t_err t_totref t_toterr t_lex].
    edestruct (IH {| t_ref := length (row_refs ps); t_err := length (row_missed ps); t_totref := t_totref st + length (row_refs ps); t_toterr := t_toterr st + length (row_missed ps); t_lex := x1 |} vs1 _ so1 I1 St1)
      as (st' & so' & vs' & -> & I' & St' & T1 & T2). cbn [rbind t_totref t_toterr] in *. exists st', so', vs'. rewrite <- app_assoc in St'. rewrite !app_length.
    split; [reflexivity|]. split; [exact I'|]. split; [exact St'|]. lia.
Qed.
Lemma groups_print : forall cs st vs ms so, Forall (Forall ready) cs -> inv e vs vs (t_lex st) so -> stands vs ms ->
  exists st' so' vs', print_groups e false cs st = Ok (map (map line) cs, st') /\ inv e vs' vs' (t_lex st') so' /\ stands vs' (ms ++ flat_map row_missed (concat cs))
    /\ t_totref st' = t_totref st + length (flat_map row_refs (concat cs)) /\ t_toterr st' = t_toterr st + length (flat_map row_missed (concat cs)).
Proof.
  induction cs as [|c cs IH]; intros st vs ms so F Iv St; cbn [print_groups map concat].
  - exists st, so, vs. cbn. rewrite app_nil_r, !Nat.add_0_r. auto.
  - inversion F; subst. destruct (rows_print c H1 st vs ms so Iv St) as (st1 & so1 & vs1 & -> & I1 & St1 & A1 & A2). cbn [rbind].
    destruct (IH st1 vs1 _ so1 H2 I1 St1) as (st' & so' & vs' & -> & I' & St' & T1 & T2). cbn [rbind]. exists st', so', vs'. rewrite <- app_assoc in St'. rewrite !flat_map_app, !app_length.
    split; [reflexivity|]. split; [exact I'|]. split; [exact St'|]. lia.
Qed.
End Enc.
