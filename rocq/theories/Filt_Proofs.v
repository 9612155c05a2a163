(** Proofs about the checks and filters of the inputs. *)
From Coq Require Import List ZArith NArith Arith Bool Lia.
From Verif Require Import Base Store_Model Store_Proofs Segm_Model Segm_Spec Uem_Model Uem_Spec Uem_Proofs Filt_Model Filt_Spec.
Import ListNotations.
Local Open Scope list_scope.

(** ** Self-overlaps *)
Definition hit (p s : rseg) : bool := (r_start s <? r_end p)%Z && str_eqb (r_src p) (r_src s) && str_eqb (r_ch p) (r_ch s).
Lemma hit_iff p s : hit p s = true <-> same_place p s /\ (r_start s < r_end p)%Z.
Proof. unfold hit, same_place. rewrite !andb_true_iff, !str_eqb_spec, Z.ltb_lt. tauto. Qed.
Fixpoint hits (prev : option rseg) (sp : speech) : nat :=
  match sp with [] => 0 | s :: r => match prev with Some p => if hit p s then 1 else 0 | None => 0 end + hits (Some s) r end.
Lemma loop_hits sp : forall prev e, overlap_loop prev sp e = e + hits prev sp.
Proof.
  induction sp as [|s r IH]; intros prev e; cbn [overlap_loop hits]; [lia|]. rewrite IH. destruct prev as [p|]; [|lia].
  change ((r_start s <? r_end p)%Z && str_eqb (r_src p) (r_src s) && str_eqb (r_ch p) (r_ch s)) with (hit p s). destruct (hit p s); lia.
Qed.
Lemma self_hits sp : self_overlaps sp = hits None sp.
Proof. unfold self_overlaps. apply loop_hits. Qed.
(** no neighbour overlaps *)
Fixpoint apart (sp : speech) : Prop := match sp with s :: ((t :: _) as r) => hit s t = false /\ apart r | _ => True end.
Lemma hits_some sp : forall p, hits (Some p) sp = 0 <-> apart (p :: sp).
Proof.
  induction sp as [|s r IH]; intros p; cbn [hits]; [cbn; tauto|]. change (apart (p :: s :: r)) with (hit p s = false /\ apart (s :: r)). rewrite <- IH. destruct (hit p s); [split; [lia|intros [K _]; discriminate]|]. cbn. tauto.
Qed.
Lemma self_zero sp : self_overlaps sp = 0 <-> apart sp.
Proof. rewrite self_hits. destruct sp as [|s r]; [cbn; tauto|]. cbn [hits]. rewrite <- hits_some. lia. Qed.
Lemma same_place_trans s t u : same_place s t -> same_place s u -> same_place t u.
Proof. unfold same_place. intros [-> ->] [-> ->]. split; reflexivity. Qed.
Lemma chain b : forall s t c, apart (s :: b ++ t :: c) -> Forall (fun s => (r_start s < r_end s)%Z) b -> Forall (same_place s) b -> same_place s t -> (r_end s <= r_start t)%Z.
Proof.
  induction b as [|x b IH]; intros s t c A P F S; cbn [app] in A; destruct A as [H A].
  - destruct (Z.le_gt_cases (r_end s) (r_start t)) as [L|L]; [exact L|]. assert (K : hit s t = true) by (apply hit_iff; split; [exact S|lia]). congruence.
  - inversion P as [|? ? P1 P2]; subst. inversion F as [|? ? F1 F2]; subst.
    assert (E : (r_end s <= r_start x)%Z).
    { destruct (Z.le_gt_cases (r_end s) (r_start x)) as [L|L]; [exact L|]. assert (K : hit s x = true) by (apply hit_iff; split; [exact F1|lia]). congruence. }
    specialize (IH x t c A P2). enough (r_end x <= r_start t)%Z by lia. apply IH.
    + eapply Forall_impl; [|exact F2]. intros y Y. exact (same_place_trans s x y F1 Y).
    + exact (same_place_trans s x t F1 S).
Qed.
Lemma apart_tail a : forall l, apart (a ++ l) -> apart l.
Proof. induction a as [|x a IH]; intros l A; [exact A|]. apply IH. cbn [app] in A. destruct (a ++ l) as [|y z] eqn:E; [exact I|]. destruct A as [_ A]. exact A. Qed.
Lemma not_apart sp : ~ apart sp -> exists a s t c, sp = a ++ s :: t :: c /\ hit s t = true.
Proof.
  induction sp as [|s sp IH]; intros N; [destruct (N I)|]. destruct sp as [|t c]; [destruct (N I)|].
  destruct (hit s t) eqn:E; [exists [], s, t, c; split; [reflexivity|exact E]|]. destruct IH as (a & s' & t' & c' & -> & H).
  - intros A. apply N. split; [exact E|exact A].
  - exists (s :: a), s', t', c'. split; [reflexivity|exact H].
Qed.
Lemma apart_dec sp : apart sp \/ ~ apart sp.
Proof. destruct (Nat.eq_dec (self_overlaps sp) 0) as [E|E]; [left; apply self_zero; exact E|right; intros K; apply self_zero in K; contradiction]. Qed.
Lemma self_spec sp : ordered sp -> (self_overlaps sp = 0 <-> ~ self_overlapping sp).
Proof.
  intros [P O]. rewrite self_zero. split.
  - intros A (a & s & b & t & c & -> & [S [L1 L2]]). apply apart_tail in A. destruct (O a s b t c eq_refl S) as [F _].
    assert (PB : Forall (fun s => (r_start s < r_end s)%Z) b).
    { apply Forall_app in P. destruct P as [_ P]. inversion P as [|? ? _ P2]; subst. apply Forall_app in P2. tauto. }
    pose proof (chain b s t c A PB F S). lia.
  - intros N. destruct (apart_dec sp) as [A|A]; [exact A|]. exfalso. destruct (not_apart sp A) as (a & s & t & c & -> & H). apply hit_iff in H. destruct H as [S H]. apply N.
    exists a, s, [], t, c. split; [reflexivity|]. split; [exact S|]. destruct (O a s [] t c eq_refl S) as [_ L].
    rewrite Forall_forall in P. assert (PT : (r_start t < r_end t)%Z) by (apply P; apply in_or_app; right; right; left; reflexivity). lia.
Qed.

(** ** The passes *)
Definition errs (m : list uem) (o : origin) (k : filt) (sp : speech) : nat :=
  match k with Auto => self_overlaps sp | Evaluation => match o with IsRef | IsGen => snd (refs_to_remove m sp 0) | _ => 0 end end.
Definition after (m : list uem) (o : origin) (k : filt) (sp : speech) : speech := match k with Auto => sp | Evaluation => filter (keep m o) sp end.
Definition total (f : speech -> nat) (l : list speech) : nat := list_sum (map f l).
Lemma total_zero f l : total f l = 0 <-> Forall (fun sp => f sp = 0) l.
Proof.
  induction l as [|x l IH]; [split; [constructor|reflexivity]|]. unfold total in *. cbn [map list_sum fold_right]. split.
  - intros E. constructor; [|apply IH]; unfold list_sum in *; lia.
  - intros F. inversion F as [|? ? F1 F2]; subst. apply IH in F2. unfold list_sum in *. lia.
Qed.
Lemma single_ok m o k sp : o <> IsOther -> NoDup (map r_id sp) -> single m o k sp = Ok (errs m o k sp, after m o k sp).
Proof.
  intros NO ND. destruct k; [reflexivity|]. cbn [single errs after]. destruct (process_filter m o sp NO ND) as (e & E). rewrite E. f_equal. f_equal.
  revert E. unfold process_speech. destruct o; [| | |contradiction].
  - destruct (refs_to_remove m sp 0) as [l e']. destruct (remove_all l sp); cbn [rbind]; try discriminate. intros K. injection K as -> _. reflexivity.
  - destruct (refs_to_remove m sp 0) as [l e']. destruct (remove_all l sp); cbn [rbind]; try discriminate. intros K. injection K as -> _. reflexivity.
  - destruct (remove_all _ sp); cbn [rbind]; try discriminate. intros K. injection K as <- _. reflexivity.
Qed.
Lemma set_ok_ m o k l : o <> IsOther -> distinct l -> process_set m o k l = Ok (total (errs m o k) l, map (after m o k) l).
Proof.
  intros NO. induction l as [|sp l IH]; intros D; [reflexivity|]. inversion D as [|? ? D1 D2]; subst. cbn [process_set].
  rewrite single_ok by assumption. cbn [rbind]. rewrite IH by exact D2. reflexivity.
Qed.
Definition after_systems m o k (h : list (str * list speech)) := map (fun p => (fst p, map (after m o k) (snd p))) h.
Lemma systems_ok m o k h : o <> IsOther -> distinct (speeches h) -> process_systems m o k h = Ok (total (errs m o k) (speeches h), after_systems m o k h).
Proof.
  intros NO. induction h as [|[t set] h IH]; intros D; [reflexivity|]. unfold speeches in *. cbn [flat_map snd] in *. apply Forall_app in D. destruct D as [D1 D2]. cbn [process_systems].
  rewrite set_ok_ by assumption. cbn [rbind]. rewrite IH by exact D2. cbn [rbind after_systems map fst snd]. unfold total. rewrite map_app, list_sum_app. reflexivity.
Qed.
Definition rside (w : str) : bool := str_eqb w REF || str_eqb w BOTH.
Definition hside (w : str) : bool := str_eqb w HYP || str_eqb w BOTH.
Lemma rside_iff w : rside w = true <-> for_refs w. Proof. unfold rside, for_refs. rewrite orb_true_iff, !str_eqb_spec. tauto. Qed.
Lemma hside_iff w : hside w = true <-> for_hyps w. Proof. unfold hside, for_hyps. rewrite orb_true_iff, !str_eqb_spec. tauto. Qed.
Lemma pass1_ok m o w k n : o <> IsOther -> distinct (n_refs n) -> distinct (speeches (n_hyps n)) ->
  pass1 m o w k n = Ok {| n_refs := if rside w then map (after m IsRef k) (n_refs n) else n_refs n;
                          n_hyps := if hside w then after_systems m o k (n_hyps n) else n_hyps n;
                          n_errs := n_errs n + (if rside w then total (errs m IsRef k) (n_refs n) else 0) + (if hside w then total (errs m o k) (speeches (n_hyps n)) else 0) |}.
Proof.
  intros NO D1 D2. unfold pass1. change (str_eqb w REF || str_eqb w BOTH) with (rside w). change (str_eqb w HYP || str_eqb w BOTH) with (hside w).
  destruct (rside w).
  - rewrite set_ok_ by (assumption || discriminate). cbn [rbind n_refs n_hyps n_errs]. destruct (hside w).
    + rewrite systems_ok by assumption. reflexivity.
    + rewrite Nat.add_0_r. reflexivity.
  - cbn [rbind]. destruct (hside w).
    + rewrite systems_ok by assumption. cbn [rbind]. rewrite Nat.add_0_r. reflexivity.
    + rewrite !Nat.add_0_r. destruct n; reflexivity.
Qed.
Lemma after_auto m o h : after_systems m o Auto h = h.
Proof. unfold after_systems. induction h as [|[t s] h IH]; [reflexivity|]. cbn [map fst snd after]. rewrite IH. rewrite map_id. reflexivity. Qed.
(** the inputs after the first pass *)
Definition final (m : list uem) (o : origin) (side : filt -> str) (a e : bool) (refs : list speech) (hyps : list (str * list speech)) : inputs :=
  {| n_refs := if e && rside (side Evaluation) then map (filter (keep m IsRef)) refs else refs;
     n_hyps := if e && hside (side Evaluation) then after_systems m o Evaluation hyps else hyps;
     n_errs := (if a && rside (side Auto) then total self_overlaps refs else 0) + (if a && hside (side Auto) then total self_overlaps (speeches hyps) else 0)
               + ((if e && rside (side Evaluation) then total (errs m IsRef Evaluation) refs else 0) + (if e && hside (side Evaluation) then total (errs m o Evaluation) (speeches hyps) else 0)) |}.
Lemma passes_ok m o side a e refs hyps : o <> IsOther -> distinct refs -> distinct (speeches hyps) ->
  passes m o side (chosen a e) {| n_refs := refs; n_hyps := hyps; n_errs := 0 |} = Ok (final m o side a e refs hyps).
Proof.
  intros NO D1 D2. unfold final, chosen. destruct a; cbn [app passes].
  - rewrite pass1_ok by assumption. cbn [rbind n_refs n_hyps n_errs errs]. rewrite after_auto.
    replace (if rside (side Auto) then map (after m IsRef Auto) refs else refs) with refs by (destruct (rside (side Auto)); [symmetry; apply map_id|reflexivity]).
    replace (if hside (side Auto) then hyps else hyps) with hyps by (destruct (hside (side Auto)); reflexivity).
    destruct e; cbn [passes andb].
    + rewrite pass1_ok by assumption. cbn [rbind n_refs n_hyps n_errs]. f_equal. f_equal. change (errs m IsRef Auto) with self_overlaps. change (errs m o Auto) with self_overlaps. destruct (rside (side Auto)), (hside (side Auto)); lia.
    + f_equal. f_equal. change (errs m IsRef Auto) with self_overlaps. change (errs m o Auto) with self_overlaps. destruct (rside (side Auto)), (hside (side Auto)); lia.
  - destruct e; cbn [passes andb].
    + rewrite pass1_ok by assumption. cbn [rbind n_refs n_hyps n_errs]. f_equal.
    + reflexivity.
Qed.
Lemma pass2_ok m use_file isg has times a e n : exists r, pass2 m use_file isg has times (chosen a e) n = r /\
  r = if e && (isg && negb has) then make_gaps m use_file (n_refs n) (map (fun s => (s, times (r_id s))) (concat (flat_map snd (n_hyps n)))) else Ok [].
Proof.
  eexists. split; [reflexivity|]. unfold chosen. destruct a, e; cbn [app pass2 andb]; try reflexivity; destruct (isg && negb has); cbn [rbind]; try reflexivity;
  destruct (make_gaps _ _ _ _); cbn [rbind]; try reflexivity; rewrite app_nil_r; reflexivity.
Qed.
Lemma reduced_map (p : rseg -> bool) (P : rseg -> Prop) l : (forall s, p s = true <-> P s) -> reduced P l (map (filter p) l).
Proof. intros H. induction l as [|x l IH]; [constructor|]. cbn [map]. constructor; [apply filter_kept; exact H|exact IH]. Qed.
Lemma reduced_after m (P : rseg -> Prop) o h : (forall s, keep m o s = true <-> P s) -> reduced_systems P h (after_systems m o Evaluation h).
Proof. intros H. induction h as [|x h IH]; [constructor|]. cbn [after_systems map]. constructor; [|exact IH]. split; [reflexivity|]. cbn [snd]. apply (reduced_map (keep m o)). exact H. Qed.
Lemma eval_zero m l : Forall (fun u => (u_from u < u_to u)%Z) m -> Forall (Forall (fun s => (r_start s < r_end s)%Z)) l ->
  (total (errs m IsRef Evaluation) l = 0 -> ~ cut_out m l) /\ (~ cut m l -> total (errs m IsRef Evaluation) l = 0).
Proof.
  intros M P. split.
  - intros E (sp & s & u & I1 & I2 & I3 & I4 & I5 & I6). rewrite total_zero, Forall_forall in E. rewrite Forall_forall in P. specialize (E sp I1). cbn [errs] in E.
    destruct (refs_errs m sp 0 M (P sp I1)) as (_ & A & _). apply (A E s u I2); try assumption.
    destruct (keep_ref m s) eqn:K; [|reflexivity]. apply keep_ref_spec in K. contradiction.
  - intros N. rewrite total_zero, Forall_forall. rewrite Forall_forall in P. intros sp I1. cbn [errs]. destruct (refs_errs m sp 0 M (P sp I1)) as (_ & _ & B).
    destruct (snd (refs_to_remove m sp 0)) as [|k] eqn:E; [reflexivity|]. exfalso. destruct (B ltac:(lia)) as (s & u & I2 & I3 & I4 & I5). apply N. exists sp, s, u. tauto.
Qed.
Lemma found_iff sm name n : found sm name n = true <->
  exists r h, In r (concat (n_refs n)) /\ In h (concat (speeches (n_hyps n))) /\ same_place r h /\ get_ref sm (r_src r) (r_ch r) (name (r_id r)) = name (r_id h).
Proof.
  unfold found, speeches. rewrite existsb_exists. split.
  - intros (r & R & K). apply existsb_exists in K. destruct K as (h & H & K). unfold related in K. rewrite !andb_true_iff, !str_eqb_spec in K. exists r, h. unfold same_place. tauto.
  - intros (r & h & R & H & [P1 P2] & K). exists r. split; [exact R|]. apply existsb_exists. exists h. split; [exact H|]. unfold related. rewrite !andb_true_iff, !str_eqb_spec. tauto.
Qed.
