(** Proofs about asclite's transcripts. *)
From Coq Require Import String List NArith Arith Bool Ascii Lia Sorted Permutation.
From Verif Require Import Base Store_Model Store_Proofs Segm_Model Segm_Proofs2 Alt_Model Alt_Spec Alt_Proofs Alt_Thm AsTrn_Model AsTrn_Spec.
Import ListNotations.
Local Open Scope res_scope.
Local Notation length := List.length.

(** ** Lines *)
Lemma getlines_line : forall l cur rest, ~ In 10%N l -> getlines cur (l ++ 10%N :: rest) = (rev cur ++ l) :: getlines [] rest.
Proof.
  induction l as [|c l IH]; intros cur rest H; cbn [app getlines].
  - cbn [N.eqb Pos.eqb]. rewrite app_nil_r. reflexivity.
  - destruct (N.eqb_spec c 10) as [->|NE]; [exfalso; apply H; left; reflexivity|]. rewrite IH by (intros K; apply H; right; exact K). cbn [rev]. rewrite <- app_assoc. reflexivity.
Qed.
Lemma getlines_last : forall l cur, ~ In 10%N l -> cur ++ l <> [] -> getlines cur l = [rev cur ++ l].
Proof.
  induction l as [|c l IH]; intros cur H NE; cbn [getlines].
  - rewrite app_nil_r in *. destruct cur; [congruence|reflexivity].
  - destruct (N.eqb_spec c 10) as [->|NC]; [exfalso; apply H; left; reflexivity|]. rewrite IH; [cbn [rev]; rewrite <- app_assoc; reflexivity|intros K; apply H; right; exact K|discriminate].
Qed.
Lemma getlines_all ls rest : Forall (fun l => ~ In 10%N l) ls -> getlines [] (concat (map (fun l => l ++ [10%N]) ls) ++ rest) = ls ++ getlines [] rest.
Proof.
  induction 1 as [|l ls H F IH]; [reflexivity|]. cbn [map concat]. rewrite <- !app_assoc. cbn [app]. rewrite (getlines_line l [] _ H). cbn [rev app]. rewrite IH. reflexivity.
Qed.
Lemma getlines_ok file ls : file_lines file ls -> getlines [] file = ls.
Proof.
  intros (F & [->|(ls' & l & -> & NE & ->)]).
  - rewrite <- (app_nil_r (concat _)), getlines_all by exact F. cbn [getlines]. apply app_nil_r.
  - apply Forall_app in F. destruct F as (F & FL). rewrite getlines_all by exact F. rewrite getlines_last; [reflexivity|exact (Forall_inv FL)|exact NE].
Qed.
Lemma lines_exist : forall file cur, ~ In 10%N cur -> file_lines (rev cur ++ file) (getlines cur file).
Proof.
  induction file as [|c file IH]; intros cur NC; cbn [getlines].
  - rewrite app_nil_r. destruct cur as [|b cur]; [split; [constructor|left; reflexivity]|]. split; [constructor; [rewrite <- in_rev; exact NC|constructor]|]. right. exists [], (rev (b :: cur)). split; [reflexivity|]. split; [|reflexivity].
    intros K. apply (f_equal (@length N)) in K. rewrite rev_length in K. discriminate.
  - destruct (N.eqb_spec c 10) as [->|NE].
    + destruct (IH [] (fun k => k)) as (F & D). split; [constructor; [rewrite <- in_rev; exact NC|exact F]|]. cbn [rev app] in D. destruct D as [E|(ls' & l & E1 & E2 & E3)].
      * left. cbn [map concat]. rewrite <- E, <- app_assoc. reflexivity.
      * right. exists (rev cur :: ls'), l. rewrite E1. split; [reflexivity|]. split; [exact E2|]. cbn [map concat]. rewrite <- !app_assoc. cbn [app]. rewrite <- E3. reflexivity.
    + specialize (IH (c :: cur)). cbn [rev] in IH. rewrite <- app_assoc in IH. apply IH. intros [K|K]; [congruence|exact (NC K)].
Qed.

(** ** One line *)
Lemma last_of_none p l : Forall (fun c => p c = false) l -> last_of p l = None.
Proof. induction 1 as [|c l H F IH]; [reflexivity|]. cbn [last_of]. rewrite IH, H. reflexivity. Qed.
Lemma last_of_at p a c t : p c = true -> Forall (fun c => p c = false) t -> last_of p (a ++ c :: t) = Some (length a).
Proof. intros P F. induction a as [|x a IH]; cbn [app last_of length]; [rewrite (last_of_none p t F), P; reflexivity|rewrite IH; reflexivity]. Qed.
Lemma line_parts l w u : utterance l w u -> uid_of l = u /\ words_of l = w.
Proof.
  intros (rest & -> & FU & FR). cbn [app].
  assert (L40 : last_of (N.eqb 40) (w ++ 40%N :: u ++ 41%N :: rest) = Some (length w)).
  { apply last_of_at; [reflexivity|]. apply Forall_app. split; [|constructor; [reflexivity|]]; (eapply Forall_impl; [|eassumption]); intros c (H & _); apply N.eqb_neq; congruence. }
  assert (L41 : last_of (N.eqb 41) (w ++ 40%N :: u ++ 41%N :: rest) = Some (length w + S (length u))).
  { change (w ++ 40%N :: u ++ 41%N :: rest) with (w ++ (40%N :: u) ++ 41%N :: rest). rewrite app_assoc, last_of_at; [rewrite app_length; reflexivity|reflexivity|]. eapply Forall_impl; [|exact FR]; intros c (_ & H); apply N.eqb_neq; congruence. }
  unfold uid_of, words_of, uid_index. rewrite L40, L41. split.
  - replace (Nat.leb (S (length w)) (length w + S (length u))) with true by (symmetry; apply Nat.leb_le; lia).
    replace (w ++ 40%N :: u ++ 41%N :: rest) with ((w ++ [40%N]) ++ u ++ 41%N :: rest) by (rewrite <- app_assoc; reflexivity).
    rewrite skipn_app, skipn_all2 by (rewrite app_length; cbn; lia). rewrite app_length. cbn [length app]. replace (S (length w) - (length w + 1)) with 0 by lia. cbn [skipn].
    replace (length w + S (length u) - S (length w)) with (length u) by lia. rewrite firstn_app, Nat.sub_diag, firstn_O, firstn_all, app_nil_r. reflexivity.
  - rewrite firstn_app, Nat.sub_diag, firstn_O, firstn_all, app_nil_r. reflexivity.
Qed.
Lemma mark_iff c : ((c =? 95) || (c =? 45))%N = true <-> mark c.
Proof. unfold mark. rewrite orb_true_iff, !N.eqb_eq. tauto. Qed.
Lemma mark_not c : ~ mark c -> ((c =? 95) || (c =? 45))%N = false.
Proof. intros H. destruct ((c =? 95) || (c =? 45))%N eqn:E; [apply mark_iff in E; contradiction|reflexivity]. Qed.
Lemma speaker_ok u s : speaker u s -> speaker_of true u = s.
Proof.
  intros [(c & t & -> & M & F)|(F & ->)]; unfold speaker_of.
  - rewrite last_of_at; [|apply mark_iff, M|eapply Forall_impl; [|exact F]; intros b; apply mark_not]. rewrite firstn_app, Nat.sub_diag, firstn_O, firstn_all, app_nil_r. reflexivity.
  - rewrite last_of_none; [reflexivity|]. eapply Forall_impl; [|exact F]. intros b; apply mark_not.
Qed.
Lemma speaker_exists u : exists s, speaker u s.
Proof.
  induction u as [|c u (s & H)]; [exists []; right; split; [constructor|reflexivity]|]. destruct H as [(d & t & -> & M & F)|(F & ->)].
  - exists (c :: s). left. exists d, t. auto.
  - destruct ((c =? 95) || (c =? 45))%N eqn:E.
    + exists []. left. exists c, u. apply mark_iff in E. auto.
    + exists (c :: u). right. split; [constructor; [intros M; apply mark_iff in M; congruence|exact F]|reflexivity].
Qed.

(** ** Order *)
Lemma before_irrefl s : ~ before s s.
Proof. induction s as [|a s IH]; intros H; inversion H; subst; [lia|contradiction]. Qed.
Lemma before_trans s t u : before s t -> before t u -> before s u.
Proof.
  intros H. revert u. induction H as [b t|a s b t L|a s t H IH]; intros u K; inversion K; subst; try (apply bf_end); try (apply bf_byte; lia); apply bf_next, IH; assumption.
Qed.
Lemma leb_before s t : str_leb s t = true -> s <> t -> before s t.
Proof.
  revert t. induction s as [|a s IH]; intros [|b t] H NE; cbn [str_leb] in H; try discriminate; [congruence|constructor|].
  destruct (N.eqb_spec a b) as [->|Q]; [apply bf_next, IH; [exact H|congruence]|apply bf_byte, N.ltb_lt, H].
Qed.
Lemma leb_not s t : str_leb s t = false -> before t s.
Proof.
  revert t. induction s as [|a s IH]; intros [|b t] H; cbn [str_leb] in H; try discriminate; [constructor|].
  destruct (N.eqb_spec a b) as [->|Q]; [apply bf_next, IH, H|apply bf_byte; apply N.ltb_ge in H; lia].
Qed.
Lemma set_place_sorted x l : StronglySorted before l -> ~ In x l -> StronglySorted before (set_place x l).
Proof.
  induction 1 as [|y l S IH F]; intros NI; cbn [set_place]; [repeat constructor|]. destruct (str_leb x y) eqn:E.
  - assert (B : before x y) by (apply leb_before; [exact E|intros ->; apply NI; left; reflexivity]). constructor; [constructor; assumption|]. constructor; [exact B|]. eapply Forall_impl; [|exact F]. intros z; apply before_trans, B.
  - apply leb_not in E. constructor; [apply IH; intros K; apply NI; right; exact K|]. apply Forall_forall. intros z Hz. apply (Permutation_in _ (set_place_perm x l)) in Hz. destruct Hz as [<-|Hz]; [exact E|]. rewrite Forall_forall in F. auto.
Qed.
Lemma set_insert_sorted x l : StronglySorted before l -> StronglySorted before (set_insert x l).
Proof.
  intros S. unfold set_insert. destruct (existsb (str_eqb x) l) eqn:E; [exact S|]. apply set_place_sorted; [exact S|]. intros K. apply existsb_str in K. congruence.
Qed.

(** ** The map of the speakers *)
Fixpoint at_key (s : str) (m : list (str * list useg)) : list useg :=
  match m with [] => [] | (k, l) :: r => if str_eqb k s then l else at_key s r end.
Lemma str_eqb_dec a b : {a = b /\ str_eqb a b = true} + {a <> b /\ str_eqb a b = false}.
Proof. destruct (str_eqb a b) eqn:E; [left; split; [apply str_eqb_spec, E|reflexivity]|right; split; [intros ->; rewrite str_eqb_refl in E; discriminate|reflexivity]]. Qed.
Lemma put_keys k x m : forall j, In j (map fst (put k x m)) <-> j = k \/ In j (map fst m).
Proof.
  intros j. induction m as [|(k', l) m IH]; cbn [put map In fst]; [intuition congruence|].
  destruct (str_eqb_dec k k') as [(-> & ->)|(NE & ->)]; [cbn [map In fst]; intuition congruence|]. destruct (str_leb k k'); cbn [map In fst]; [intuition congruence|]. rewrite IH. intuition congruence.
Qed.
Lemma at_key_not s m : ~ In s (map fst m) -> at_key s m = [].
Proof. induction m as [|(k, l) m IH]; intros H; [reflexivity|]. cbn [at_key]. destruct (str_eqb_dec k s) as [(-> & _)|(_ & ->)]; [exfalso; apply H; left; reflexivity|]. apply IH. intros K; apply H; right; exact K. Qed.
Lemma put_ok k x m : StronglySorted before (map fst m) -> StronglySorted before (map fst (put k x m)) /\ forall s, at_key s (put k x m) = at_key s m ++ (if str_eqb k s then [x] else []).
Proof.
  induction m as [|(k', l) m IH]; intros S.
  - cbn. split; [repeat constructor|]. intros s. destruct (str_eqb k s); reflexivity.
  - cbn [map fst] in S. inversion S as [|? ? S1 F]; subst. destruct (IH S1) as (P1 & P2). cbn [put]. destruct (str_eqb_dec k k') as [(-> & E)|(NE & E)]; rewrite E.
    + split; [exact S|]. intros s. cbn [at_key]. destruct (str_eqb k' s); [reflexivity|]. rewrite app_nil_r. reflexivity.
    + destruct (str_leb k k') eqn:EL.
      * assert (B : before k k') by (apply leb_before; assumption). split.
        -- cbn [map fst]. constructor; [exact S|]. constructor; [exact B|]. eapply Forall_impl; [|exact F]. intros z; apply before_trans, B.
        -- intros s. cbn [at_key]. destruct (str_eqb_dec k s) as [(-> & ->)|(_ & ->)]; [|rewrite app_nil_r; reflexivity].
           rewrite (str_eqb_neq k' s) by congruence. rewrite at_key_not; [reflexivity|]. intros K. rewrite Forall_forall in F. specialize (F s K). exact (before_irrefl _ (before_trans _ _ _ B F)).
      * apply leb_not in EL. split.
        -- cbn [map fst]. constructor; [exact P1|]. apply Forall_forall. intros z Hz. apply put_keys in Hz. destruct Hz as [->|Hz]; [exact EL|]. rewrite Forall_forall in F. auto.
        -- intros s. cbn [at_key]. destruct (str_eqb_dec k' s) as [(-> & ->)|(_ & ->)]; [rewrite (str_eqb_neq k s) by exact NE; rewrite app_nil_r; reflexivity|apply P2].
Qed.

(** ** The file *)
Lemma load_from_ok fuel : forall ls n us, describes n ls us -> forall als el st m, good st -> Forall2 (transcript fuel) us als -> StronglySorted before (map fst m) ->
  exists st' m', load_from fuel true n el ls st m = Ok (st', m') /\ good st' /\ ext st st' /\ StronglySorted before (map fst m')
    /\ (forall s, In s (map fst m') <-> In s (map fst m) \/ exists q, In q us /\ q_spkr q = s)
    /\ forall s, exists new, at_key s m' = at_key s m ++ new /\ Forall2 (is_for st') (of_speaker s (numbered el us als)) new.
Proof.
  induction 1 as [n|n l ls us HC D IH|n l w u s ls us HC UT SP D IH]; intros als el st m G FA SM; cbn [load_from].
  - exists st, m. split; [reflexivity|]. split; [exact G|]. split; [apply ext_refl|]. split; [exact SM|]. split; [intros s; split; [auto|intros [K|(q & [] & _)]; exact K]|]. intros s. exists []. rewrite app_nil_r. split; [reflexivity|]. constructor.
  - assert (E : is_comment l = true) by (destruct l as [|c l]; [discriminate|cbn in *; rewrite HC; reflexivity]). rewrite E. exact (IH als el st m G FA SM).
  - assert (E : is_comment l = false) by (destruct l as [|c l]; [reflexivity|cbn in *; apply N.eqb_neq, HC]). rewrite E. cbv zeta. destruct (line_parts l w u UT) as (-> & ->). rewrite (speaker_ok u s SP).
    inversion FA as [|q a us0 als0 TA FA' E1 E2]; subst. destruct TA as (LX & OK & LF). cbn [q_words] in LX.
    destruct (parse_correct None false a fuel st OK LF G) as (st1 & v & EP & ((G1 & _) & X1 & W1 & W2 & SPE) & _).
    unfold parse_line. rewrite filter_space_lex, LX, EP. cbn [rbind].
    set (x := {| u_id := 40%N :: u ++ [41%N]; u_spkr := s; u_line := n; u_elem := el; u_graph := v |}).
    destruct (put_ok s x m SM) as (SM1 & AT). destruct (IH als0 (S el) st1 (put s x m) G1 FA' SM1) as (st' & m' & EL & G' & X' & SM' & KEYS & NEW).
    exists st', m'. split; [exact EL|]. split; [exact G'|]. split; [eapply ext_trans; eassumption|]. split; [exact SM'|]. split.
    + intros j. rewrite KEYS, put_keys. split.
      * intros [[->|K]|(q & H1 & H2)]; [right; eexists; split; [left; reflexivity|reflexivity]|left; exact K|right; exists q; split; [right; exact H1|exact H2]].
      * intros [K|(q & [<-|H1] & H2)]; [left; right; exact K|left; left; symmetry; exact H2|right; eauto].
    + intros j. destruct (NEW j) as (new & EN & FN). rewrite AT in EN. cbn [numbered]. unfold of_speaker. cbn [filter fst snd q_spkr]. fold (of_speaker j (numbered (S el) us als0)).
      destruct (str_eqb s j); [|exists new; rewrite app_nil_r in EN; auto]. exists (x :: new). split; [rewrite EN, <- app_assoc; reflexivity|]. constructor; [|exact FN].
      unfold is_for, segment_of. cbn [fst snd q_uid q_spkr q_line u_id u_spkr u_line u_elem u_graph x]. repeat (split; [reflexivity|]). intros w'. rewrite (spells_ext st1 st'); [apply SPE|exact G1|exact X'|].
      intros y Hy. apply W1 in Hy. lia.
Qed.

(** ** Pairing *)
Lemma find_first id l x : find (fun s => str_eqb (u_id s) id) l = Some x -> first_with id l x.
Proof.
  induction l as [|y l IH]; intros H; [discriminate|]. cbn [find] in H. destruct (str_eqb (u_id y) id) eqn:E.
  - injection H as ->. exists [], l. split; [reflexivity|]. split; [apply str_eqb_spec, E|constructor].
  - destruct (IH H) as (a & b & -> & E2 & F). exists (y :: a), b. split; [reflexivity|]. split; [exact E2|]. constructor; [intros K; apply str_eqb_spec in K; congruence|exact F].
Qed.
Lemma find_set_ok id set : (exists s, In s (concat set) /\ u_id s = id) -> exists x, find_set id set = Ok x /\ first_with id (concat set) x.
Proof.
  induction set as [|sp set IH]; intros (s & Hs & E); [destruct Hs|]. cbn [find_set concat] in *. destruct (find (fun s => str_eqb (u_id s) id) sp) as [x|] eqn:EF.
  - exists x. split; [reflexivity|]. destruct (find_first id sp x EF) as (a & b & -> & E2 & F). exists a, (b ++ concat set). split; [rewrite <- app_assoc; reflexivity|auto].
  - assert (NF : Forall (fun y => u_id y <> id) sp). { apply Forall_forall. intros y Hy K. pose proof (find_none _ _ EF y Hy) as Q. cbn beta in Q. rewrite K, str_eqb_refl in Q. discriminate. }
    apply in_app_iff in Hs. destruct Hs as [Hs|Hs]; [rewrite Forall_forall in NF; destruct (NF s Hs E)|]. destruct (IH (ex_intro _ s (conj Hs E))) as (x & EX & a & b & EC & E2 & F).
    exists x. split; [exact EX|]. exists (sp ++ a), b. rewrite EC, <- app_assoc. split; [reflexivity|]. split; [exact E2|]. apply Forall_app; auto.
Qed.
Lemma find_set_missing id set : (forall s, In s (concat set) -> u_id s <> id) -> find_set id set = Undef.
Proof.
  induction set as [|sp set IH]; intros H; [reflexivity|]. cbn [find_set concat] in *. destruct (find (fun s => str_eqb (u_id s) id) sp) as [x|] eqn:EF.
  - destruct (find_first id sp x EF) as (a & b & -> & E2 & _). exfalso. apply (H x); [|exact E2]. rewrite !in_app_iff. left. right. left. reflexivity.
  - apply IH. intros s Hs. apply H. apply in_app_iff. right. exact Hs.
Qed.
Lemma ids_ok : forall l acc, StronglySorted before acc ->
  let r := fold_left (fun l s => set_insert (u_id s) l) l acc in
  StronglySorted before r /\ forall id, In id r <-> In id acc \/ exists s, In s l /\ u_id s = id.
Proof.
  induction l as [|s l IH]; intros acc S; cbn [fold_left].
  - split; [exact S|]. intros id. split; [auto|intros [H|(s & [] & _)]; exact H].
  - destruct (IH (set_insert (u_id s) acc) (set_insert_sorted _ _ S)) as (A & B). split; [exact A|]. intros id. rewrite B, set_insert_in. split.
    + intros [[->|H]|(y & H1 & H2)]; [right; exists s; split; [left|]; reflexivity|left; exact H|right; exists y; split; [right; exact H1|exact H2]].
    + intros [H|(y & [<-|H1] & H2)]; [left; right; exact H|left; left; symmetry; exact H2|right; eauto].
Qed.
Lemma groups_ok refs hyps : forall l st fuel, t_list st = l -> length l + 2 <= fuel -> ~ In [] (t_cur st :: l) ->
  (forall id, In id (t_cur st :: l) -> (exists s, In s (concat refs) /\ u_id s = id) /\ (exists s, In s (concat hyps) /\ u_id s = id)) ->
  exists gs, groups fuel refs hyps st = Ok (gs, {| t_refs := t_refs st; t_list := []; t_cur := [] |}) /\ Forall2 (paired refs hyps) (t_cur st :: l) gs.
Proof.
  induction l as [|x l IH]; intros st fuel EL LF NE HI; (destruct fuel as [|fuel]; [cbn in LF; lia|]); cbn [groups]; (destruct (t_cur st) as [|c cs] eqn:EC; [exfalso; apply NE; left; reflexivity|]); rewrite <- EC in *.
  all: destruct (HI (t_cur st) (or_introl eq_refl)) as (HR & HH); destruct (find_set_ok _ _ HR) as (r & ER & FR); destruct (find_set_ok _ _ HH) as (h & EH & FH).
  all: assert (LR : look (t_cur st) refs = Ok [r]) by (unfold look; rewrite ER; destruct refs; [destruct HR as (? & [] & _)|reflexivity]).
  all: assert (LH : look (t_cur st) hyps = Ok [h]) by (unfold look; rewrite EH; destruct hyps; [destruct HH as (? & [] & _)|reflexivity]).
  all: unfold next; rewrite LR; cbn [rbind]; rewrite LH; cbn [rbind]; rewrite EL.
  - destruct fuel as [|fuel]; [cbn in LF; lia|]. cbn [groups t_cur rbind]. eexists. split; [reflexivity|]. constructor; [exists r, h; auto|constructor].
  - destruct (IH {| t_refs := t_refs st; t_list := l; t_cur := x |} fuel eq_refl) as (gs & EG & FG); cbn [t_cur t_refs] in *.
    + cbn [length] in LF. lia.
    + intros K. apply NE. right. exact K.
    + intros id Hid. apply HI. right. exact Hid.
    + rewrite EG. cbn [rbind]. eexists. split; [reflexivity|]. constructor; [exists r, h; auto|exact FG].
Qed.
Lemma pair_up_ok addr refs hyps st : t_refs st <> Some addr -> concat refs <> [] ->
  (forall s, In s (concat refs) -> u_id s <> [] /\ exists h, In h (concat hyps) /\ u_id h = u_id s) ->
  exists ids gs, pair_up addr refs hyps st = Ok (gs, {| t_refs := Some addr; t_list := []; t_cur := [] |})
    /\ StronglySorted before ids /\ (forall id, In id ids <-> exists s, In s (concat refs) /\ u_id s = id) /\ Forall2 (paired refs hyps) ids gs.
Proof.
  intros NA NE HS. unfold pair_up, reset. replace (match t_refs st with Some a => Nat.eqb a addr | None => false end) with false
    by (destruct (t_refs st) as [a|]; [symmetry; apply Nat.eqb_neq; congruence|reflexivity]). cbv zeta.
  destruct (ids_ok (concat refs) [] ltac:(constructor)) as (SO & IN). cbv zeta in SO, IN.
  destruct (fold_left (fun l s => set_insert (u_id s) l) (concat refs) []) as [|x l] eqn:EF.
  - exfalso. destruct (concat refs) as [|s q]; [congruence|]. apply (proj2 (IN (u_id s))). right. exists s. split; [left|]; reflexivity.
  - cbn [rbind t_list]. assert (IN' : forall id, In id (x :: l) <-> exists s, In s (concat refs) /\ u_id s = id) by (intros id; rewrite IN; split; [intros [[]|H]; exact H|auto]).
    destruct (groups_ok refs hyps l {| t_refs := Some addr; t_list := l; t_cur := x |} (S (S (length l))) eq_refl) as (gs & EG & FG); cbn [t_cur t_refs] in *.
    + lia.
    + intros K. apply IN' in K. destruct K as (s & H1 & H2). exact (proj1 (HS s H1) H2).
    + intros id Hid. apply IN' in Hid. split; [exact Hid|]. destruct Hid as (s & H1 & <-). apply (HS s H1).
    + exists (x :: l), gs. auto.
Qed.
