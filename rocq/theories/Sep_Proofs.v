(** Proofs about [TEXT_separate_chars]. *)
From Coq Require Import List NArith Arith Bool Lia.
From Verif Require Import Base Text_Model Text_Spec Text_Proofs1 Case_Model Case_Proofs Sep_Model Sep_Spec.
Import ListNotations.
Local Open Scope res_scope.

Definition hold (out s : list N) : Prop := exists j, out = s ++ 0%N :: j.

Lemma put_end out s h : hold out s -> length s + length h + 1 <= length out ->
  exists out', Case_Model.store out (length s) (h ++ [0%N]) = Ok out' /\ hold out' (s ++ h) /\ length out' = length out.
Proof.
  intros (j & ->) L. unfold Case_Model.store. rewrite !app_length in *. cbn [length] in *.
  replace (length s + (length h + 1) <=? length s + S (length j)) with true by (symmetry; apply Nat.leb_le; lia).
  rewrite (firstn_app (length s)), Nat.sub_diag, firstn_all. cbn [firstn]. rewrite app_nil_r. eexists. split; [reflexivity|]. split.
  - exists (skipn (length s + (length h + 1)) (s ++ 0%N :: j)). rewrite <- !app_assoc. reflexivity.
  - rewrite !app_length, skipn_length, app_length. cbn [length]. lia.
Qed.
Lemma grow_ok junk out s cs : hold out s -> ~ In 0%N s -> cs <= 6 -> 10 <= length out ->
  exists out', grow junk out (length s) cs = Ok (out', length s) /\ hold out' s /\ length s + cs + 4 <= length out' /\ length out <= length out'.
Proof.
  intros (j & E) NZ L6 L10. unfold grow. destruct (Nat.ltb (length out) (length s + cs + 4)) eqn:B.
  - apply Nat.ltb_lt in B. set (more := repeat junk _). cbv zeta.
    assert (E' : out ++ more = s ++ 0%N :: (j ++ more)) by (rewrite E, <- app_assoc; reflexivity).
    assert (LS : S (length s) <= length out) by (rewrite E, app_length; cbn; lia).
    rewrite E', (strlen_at s (j ++ more) NZ). cbn [rbind]. eexists. split; [reflexivity|]. split; [eexists; reflexivity|].
    rewrite <- E', app_length. unfold more. rewrite repeat_length. lia.
  - apply Nat.ltb_ge in B. exists out. split; [reflexivity|]. split; [exists j; exact E|]. split; lia.
Qed.

Lemma char_length e c : is_char e c -> 1 <= length c <= 6.
Proof. intros (l & r & -> & CS & _). destruct e; cbn [char_size] in CS; cbn [length] in *; lia. Qed.
Lemma char_no0 e c : is_char e c -> ~ In 0%N c.
Proof. intros (l & r & -> & _ & F) I. rewrite Forall_forall in F. specialize (F _ I). lia. Qed.
Lemma ccpy1 e c m : is_char e c -> ccpy e (c ++ m) 1 = Ok c.
Proof.
  intros H. cbn [ccpy]. rewrite (nbytes_char e c m H). cbn [rbind]. rewrite take_app. cbn [rbind]. rewrite adv_app. cbn [rbind].
  rewrite app_nil_r. reflexivity.
Qed.
Lemma ccpy2 e c d m : is_char e c -> is_char e d -> ccpy e (c ++ d ++ m) 2 = Ok (c ++ d).
Proof.
  intros H H2. cbn [ccpy]. rewrite (nbytes_char e c _ H). cbn [rbind]. rewrite take_app. cbn [rbind]. rewrite adv_app. cbn [rbind].
  rewrite (nbytes_char e d m H2). cbn [rbind]. rewrite take_app. cbn [rbind]. rewrite adv_app. cbn [rbind]. rewrite app_nil_r. reflexivity.
Qed.
Lemma ccpy_blank e : ccpy e [32; 0]%N 1 = Ok [32%N].
Proof. destruct e; reflexivity. Qed.

Lemma land_high b : (b < 256)%N -> (N.land b 128 =? 0)%N = (b <? 128)%N.
Proof.
  intros H. assert (K : forallb (fun n => Bool.eqb (N.land (N.of_nat n) 128 =? 0) (N.of_nat n <? 128))%N (seq 0 256) = true) by (vm_compute; reflexivity).
  rewrite forallb_forall in K. specialize (K (N.to_nat b)). rewrite N2Nat.id in K. apply eqb_prop, K. apply in_seq. split; [lia|]. cbn [Nat.add].
  change 256 with (N.to_nat 256) at 1. lia.
Qed.
Lemma is_ascii_char e c m : is_char e c -> is_ascii e (c ++ m) = Ok (ascii_unit e c).
Proof.
  intros (l & r & -> & CS & F). pose proof (Forall_inv F) as B. cbn beta in B. unfold is_ascii, ascii_unit, rd. cbn [app length] in *.
  destruct e; try reflexivity; cbn [rbind]; rewrite land_high by lia; cbn [char_size] in CS; f_equal.
  - destruct CS as [[L ->]|[L ->]]; cbn [Nat.eqb]; [apply N.ltb_lt|apply N.ltb_ge]; lia.
  - destruct (N.ltb_spec l 128) as [L|L]; symmetry; [apply Nat.eqb_eq|apply Nat.eqb_neq]; lia.
Qed.
Lemma blank_char e c m : is_char e c -> exists b, rd (c ++ m) = Ok b /\ Nat.eqb (length c) 1 && (b =? 32)%N = is_blank c /\ Nat.eqb (length c) 1 && (b =? 45)%N = is_hyphen c.
Proof. intros (l & r & -> & _ & _). exists l. destruct r as [|x r]; cbn; auto. Qed.

(** ** The last unit *)
Definition last_blank (us : list (list N)) : bool := match rev us with [] => true | x :: _ => is_blank x end.
Definition last_asc (e : enc) (us : list (list N)) : bool := match rev us with [] => false | x :: _ => ascii_unit e x end.
Lemma last_snoc_blank us x : last_blank (us ++ [x]) = is_blank x.
Proof. unfold last_blank. rewrite rev_app_distr. reflexivity. Qed.
Lemma last_snoc_asc e us x : last_asc e (us ++ [x]) = ascii_unit e x.
Proof. unfold last_asc. rewrite rev_app_distr. reflexivity. Qed.
Lemma spread_snoc e na us x : spread e na (us ++ [x]) =
  spread e na us ++ (if last_blank us then [] else if is_blank x then [] else if na && ascii_unit e x && last_asc e us then [] else [32%N]) ++ x.
Proof.
  induction us as [|a us IH]; [cbn; rewrite app_nil_r; reflexivity|]. cbn [app]. destruct us as [|b us].
  - cbn [app spread last_blank last_asc rev]. rewrite app_nil_r. unfold apart, last_blank, last_asc. cbn [rev app].
    destruct (is_blank a), (is_blank x), na, (ascii_unit e a), (ascii_unit e x); cbn; rewrite ?app_nil_r; reflexivity.
  - change ((b :: us) ++ [x]) with (b :: us ++ [x]) in *. cbn [spread] in *. rewrite IH. rewrite <- !app_assoc. 
    assert (LB : last_blank (a :: b :: us) = last_blank (b :: us) /\ last_asc e (a :: b :: us) = last_asc e (b :: us)).
    { unfold last_blank, last_asc. cbn [rev]. rewrite <- !app_assoc. destruct (rev us) as [|z l]; split; reflexivity. }
    destruct LB as [-> ->]. reflexivity.
Qed.
Lemma spread_last_nil e na us : Forall (fun u => u <> []) us -> spread e na us = [] -> us = [].
Proof. intros F E. destruct us as [|x us]; [reflexivity|]. cbn [spread] in E. apply app_eq_nil in E. destruct E as [E _]. destruct (Forall_inv F E). Qed.

Section Loop.
Variable e : enc.
Variable p : profile.
Variables na dh : bool.
Variable junk : N.
Hypothesis GU : p = Guarani -> e = GB \/ e = UTF8.

(** The state: the string so far is that of the units [ds]. *)
Definition at_units (ds : list (list N)) (out : list N) (tp : nat) : Prop :=
  hold out (spread e na ds) /\ ~ In 0%N (spread e na ds) /\ tp = length (spread e na ds) /\ 10 <= length out /\ Forall (fun u => u <> []) ds.

Lemma add_blank s out (k1 k2 k3 : bool) : hold out s -> length s + 1 + 1 <= length out ->
  exists out', (if k1 then Ok (out, length s) else if k2 then Ok (out, length s) else if k3 then Ok (out, length s)
     else let* out := strccpy e out (length s) [32%N; 0%N] 1 in Ok (out, S (length s)))
    = Ok (out', length (s ++ (if k1 then [] else if k2 then [] else if k3 then [] else [32%N]))) /\
    hold out' (s ++ (if k1 then [] else if k2 then [] else if k3 then [] else [32%N])) /\ length out' = length out.
Proof.
  intros H L. destruct k1, k2, k3; rewrite ?app_nil_r; try (exists out; split; [reflexivity|auto]; fail).
  unfold strccpy. rewrite ccpy_blank. cbn [rbind].
  destruct (put_end out s [32%N] H) as (o & E & HO & LO); [cbn; lia|]. change ([32%N] ++ [0%N]) with [32; 0]%N in E. cbn [app]. rewrite E. cbn [rbind].
  exists o. rewrite app_length. cbn [length]. rewrite Nat.add_1_r. auto.
Qed.

(** Whether a letter with a tilde comes. *)
Lemma guarani_yes g t m : p = Guarani -> tilde_g g t -> guarani_g p (g ++ t ++ m) = Ok true.
Proof. intros -> [[-> | ->] ->]; reflexivity. Qed.
Lemma guarani_no c cs j : is_char e c -> Forall (is_char e) cs -> (p = Guarani -> forall t cs', cs = t :: cs' -> ~ tilde_g c t) ->
  guarani_g p (c ++ concat cs ++ 0%N :: j) = Ok false.
Proof.
  intros HC HF HN. unfold guarani_g. destruct (is_guarani p) eqn:EP; [|reflexivity].
  assert (P : p = Guarani) by (destruct p; try discriminate; reflexivity). specialize (HN P). specialize (GU P).
  destruct HC as (l & r & -> & CS & F). cbn [app rd rbind]. destruct ((l =? 71) || (l =? 103))%N eqn:EG; [|reflexivity].
  apply orb_prop in EG. rewrite !N.eqb_eq in EG.
  assert (r = []) as ->.
  { destruct GU as [-> | ->]; cbn [char_size length] in CS; destruct r; [reflexivity|cbn [length] in CS; lia|reflexivity|cbn [length] in CS; lia]. }
  destruct cs as [|t cs]; [reflexivity|]. pose proof (Forall_inv HF) as (l2 & r2 & E2 & CS2 & F2). rewrite E2.
  unfold at_off. cbn [concat app skipn rd rbind]. destruct (l2 =? 204)%N eqn:E204; cycle 1.
  { rewrite andb_false_r. reflexivity. }
  apply N.eqb_eq in E204. rewrite E2 in CS2. assert (exists b, r2 = [b]) as (b & ->).
  { destruct GU as [-> | ->]; cbn [char_size length] in CS2; (destruct r2 as [|b [|b' r2]]; [cbn [length] in CS2; lia|eauto|cbn [length] in CS2; lia]). }
  subst l2. cbn [app skipn rd rbind N.eqb negb andb]. destruct (b =? 131)%N eqn:E131; [|rewrite andb_false_r; reflexivity].
  apply N.eqb_eq in E131. subst b. exfalso. apply (HN t cs eq_refl). split; [|exact E2]. destruct EG as [-> | ->]; auto.
Qed.

Lemma loop_ok cs us : units p cs us -> forall f ds out tp j, Forall (is_char e) cs -> cs <> [] -> length cs <= f -> at_units ds out tp ->
  exists out', sep_loop e p na dh junk f (concat cs ++ 0%N :: j) out tp (last_asc e ds) (last_blank ds) = Ok out' /\
    at_units (ds ++ kept dh us) out' (length (spread e na (ds ++ kept dh us))) /\ length out <= length out'.
Proof.
  assert (REST : forall (c : list N) (cs0 us0 : list (list N)) f ds2 out2 j, units p cs0 us0 ->
    (forall f ds out tp j, Forall (is_char e) cs0 -> cs0 <> [] -> length cs0 <= f -> at_units ds out tp ->
       exists out', sep_loop e p na dh junk f (concat cs0 ++ 0%N :: j) out tp (last_asc e ds) (last_blank ds) = Ok out' /\
       at_units (ds ++ kept dh us0) out' (length (spread e na (ds ++ kept dh us0))) /\ length out <= length out') ->
    Forall (is_char e) cs0 -> length cs0 <= f -> at_units ds2 out2 (length (spread e na ds2)) ->
    exists out', (let* from := adv (length c) (c ++ concat cs0 ++ 0%N :: j) in let* b := rd from in
       if (b =? 0)%N then Ok out2 else sep_loop e p na dh junk f from out2 (length (spread e na ds2)) (last_asc e ds2) (last_blank ds2)) = Ok out' /\
       at_units (ds2 ++ kept dh us0) out' (length (spread e na (ds2 ++ kept dh us0))) /\ length out2 <= length out').
  { intros c cs0 us0 f ds2 out2 j U IH HF LF AU. rewrite adv_app. cbn [rbind]. destruct cs0 as [|c0 cs0].
    - inversion U; subst. cbn [concat app rd rbind N.eqb]. exists out2. unfold kept. cbn [filter]. rewrite app_nil_r. auto.
    - pose proof (Forall_inv HF) as HC. destruct HC as (l & r & -> & _ & FB). pose proof (Forall_inv FB) as K. cbn beta in K.
      assert (B : rd (concat ((l :: r) :: cs0) ++ 0%N :: j) = Ok l) by reflexivity. rewrite B. cbn [rbind].
      replace (l =? 0)%N with false by (symmetry; apply N.eqb_neq; lia). apply IH; auto. discriminate. }
  intros U. induction U as [|g t cs us P TG U IH|c cs us NT U IH]; intros f ds out tp j HF NE LF (HO & NZ & -> & L10 & NN).
  - congruence.
  - pose proof (Forall_inv HF) as HG. pose proof (Forall_inv (Forall_inv_tail HF)) as HT. pose proof (Forall_inv_tail (Forall_inv_tail HF)) as HR.
    destruct f as [|f]; [cbn in LF; lia|]. cbn [sep_loop concat]. rewrite <- !app_assoc. rewrite (nbytes_char e g _ HG). cbn [rbind].
    pose proof (char_length e g HG) as LG.
    destruct (grow_ok junk out _ (length g) HO NZ ltac:(lia) L10) as (o1 & -> & HO1 & R1 & L1). cbn [rbind].
    rewrite (guarani_yes g t _ P TG), (is_ascii_char e g _ HG). cbn [rbind]. destruct (blank_char e g (t ++ concat cs ++ 0%N :: j) HG) as (b & -> & EB & EH). cbn [rbind].
    assert (LL : length g = 1 /\ length t = 2) by (destruct TG as [[-> | ->] ->]; split; reflexivity).
    destruct (add_blank (spread e na ds) o1 (last_blank ds) false false HO1 ltac:(lia)) as (o2 & E2 & HO2 & L2). rewrite E2. cbn [rbind]. clear E2.
    set (sp := if last_blank ds then [] else [32%N]) in *. unfold strccpy. rewrite (ccpy2 e g t _ HG HT). cbn [rbind].
    assert (LSP : length sp <= 1) by (unfold sp; destruct (last_blank ds); cbn; lia).
    destruct (put_end o2 (spread e na ds ++ sp) (g ++ t) HO2) as (o3 & -> & HO3 & L3); [rewrite !app_length; lia|]. cbn [rbind].
    assert (SN : spread e na (ds ++ [g ++ t]) = (spread e na ds ++ sp) ++ g ++ t).
    { rewrite spread_snoc. assert (BL : is_blank (g ++ t) = false) by (destruct TG as [[-> | ->] ->]; reflexivity).
      assert (AS : ascii_unit e (g ++ t) = false) by (destruct TG as [[-> | ->] ->]; destruct (GU P) as [-> | ->]; reflexivity).
      rewrite BL, AS, andb_false_r. cbn [andb]. rewrite app_assoc. reflexivity. }
    assert (KE : kept dh ((g ++ t) :: us) = (g ++ t) :: kept dh us).
    { unfold kept. cbn [filter]. replace (is_hyphen (g ++ t)) with false by (destruct TG as [[-> | ->] ->]; reflexivity). rewrite andb_false_r. reflexivity. }
    rewrite KE. replace (ds ++ (g ++ t) :: kept dh us) with ((ds ++ [g ++ t]) ++ kept dh us) by (rewrite <- app_assoc; reflexivity).
    assert (T3 : length (spread e na ds ++ sp) + 3 = length (spread e na (ds ++ [g ++ t]))) by (rewrite SN, !app_length; lia).
    rewrite T3. pose proof (REST (g ++ t) cs us f (ds ++ [g ++ t]) o3 j U IH HR) as K. rewrite last_snoc_blank, last_snoc_asc in K.
    replace (is_blank (g ++ t)) with false in K by (destruct TG as [[-> | ->] ->]; reflexivity).
    replace (ascii_unit e (g ++ t)) with false in K by (destruct TG as [[-> | ->] ->]; destruct (GU P) as [-> | ->]; reflexivity).
    replace (length (g ++ t)) with 3 in K by (rewrite app_length; lia). rewrite <- app_assoc in K.
    destruct K as (o4 & E4 & A4 & L4).
    + cbn [length] in LF. lia.
    + split; [rewrite SN; exact HO3|]. split; [|split; [reflexivity|split; [lia|apply Forall_app; split; [exact NN|repeat constructor]; intros K; apply app_eq_nil in K; destruct K as [-> _]; destruct LL as [LL _]; discriminate]]]. rewrite SN, !in_app_iff. intros [[K|K]|[K|K]]; [exact (NZ K)| |exact (char_no0 e g HG K)|exact (char_no0 e t HT K)].
      unfold sp in K. destruct (last_blank ds); cbn in K; intuition discriminate.
    + exists o4. split; [exact E4|]. split; [exact A4|]. lia.
  - pose proof (Forall_inv HF) as HC. pose proof (Forall_inv_tail HF) as HR.
    destruct f as [|f]; [cbn in LF; lia|]. cbn [sep_loop concat]. rewrite <- !app_assoc. rewrite (nbytes_char e c _ HC). cbn [rbind].
    pose proof (char_length e c HC) as LC.
    destruct (grow_ok junk out _ (length c) HO NZ ltac:(lia) L10) as (o1 & -> & HO1 & R1 & L1). cbn [rbind].
    rewrite (guarani_no c cs j HC HR NT), (is_ascii_char e c _ HC). cbn [rbind]. destruct (blank_char e c (concat cs ++ 0%N :: j) HC) as (b & -> & EB & EH). cbn [rbind].
    rewrite EB, EH. assert (LFF : length cs <= f) by (cbn [length] in LF; lia).
    destruct (dh && is_hyphen c) eqn:ED.
    + assert (KE : kept dh (c :: us) = kept dh us) by (unfold kept; cbn [filter]; rewrite ED; reflexivity). rewrite KE.
      destruct (REST c cs us f ds o1 j U IH HR LFF) as (o2 & E2 & A2 & L2); [split; [exact HO1|split; [exact NZ|split; [reflexivity|split; [lia|exact NN]]]]|].
      exists o2. split; [|split; [exact A2|lia]]. destruct (Nat.eqb (length (spread e na ds)) 0); cbn [rbind]; exact E2.
    + assert (KE : kept dh (c :: us) = c :: kept dh us) by (unfold kept; cbn [filter]; rewrite ED; reflexivity). rewrite KE.
      replace (ds ++ c :: kept dh us) with ((ds ++ [c]) ++ kept dh us) by (rewrite <- app_assoc; reflexivity).
      destruct (add_blank (spread e na ds) o1 (last_blank ds) (is_blank c) (na && ascii_unit e c && last_asc e ds) HO1 ltac:(lia)) as (o2 & E2 & HO2 & L2).
      pose proof (spread_snoc e na ds c) as SN.
      set (sp := if last_blank ds then [] else if is_blank c then [] else if na && ascii_unit e c && last_asc e ds then [] else [32%N]) in *.
      assert (LSP : length sp <= 1) by (unfold sp; destruct (last_blank ds), (is_blank c), (na && ascii_unit e c && last_asc e ds); cbn; lia).
      destruct (put_end o2 (spread e na ds ++ sp) c HO2) as (o3 & E3 & HO3 & L3); [rewrite !app_length; lia|].
      assert (SN' : spread e na (ds ++ [c]) = (spread e na ds ++ sp) ++ c) by (rewrite SN, app_assoc; reflexivity).
      assert (TC : length (spread e na ds ++ sp) + length c = length (spread e na (ds ++ [c]))) by (rewrite SN', !app_length; lia).
      pose proof (REST c cs us f (ds ++ [c]) o3 j U IH HR LFF) as K. rewrite last_snoc_blank, last_snoc_asc in K.
      destruct K as (o4 & E4 & A4 & L4).
      { split; [rewrite SN'; exact HO3|]. split; [|split; [reflexivity|split; [lia|apply Forall_app; split; [exact NN|repeat constructor]; intros ->; cbn in LC; lia]]]. rewrite SN', !in_app_iff. intros [[K|K]|K]; [exact (NZ K)| |exact (char_no0 e c HC K)].
        unfold sp in K. destruct (last_blank ds), (is_blank c), (na && ascii_unit e c && last_asc e ds); cbn in K; intuition discriminate. }
      exists o4. split; [|split; [exact A4|lia]]. rewrite <- E4. clear E4 A4 L4. unfold strccpy in *. rewrite (ccpy1 e c _ HC). cbn [rbind].
      destruct (Nat.eqb (length (spread e na ds)) 0) eqn:EZ.
      * apply Nat.eqb_eq in EZ. assert (EN : spread e na ds = []) by (destruct (spread e na ds); [reflexivity|discriminate]).
        apply (spread_last_nil e na ds NN) in EN. subst ds. change (spread e na []) with (@nil N) in *. change sp with (@nil N) in *. cbn [app length Nat.add] in *.
        unfold last_blank in E2. cbn [rev] in E2. injection E2 as <-. rewrite E3. cbn [rbind]. rewrite <- TC. reflexivity.
      * rewrite E2. cbn [rbind]. rewrite E3. cbn [rbind]. rewrite TC. reflexivity.
Qed.
End Loop.
