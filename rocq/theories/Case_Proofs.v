(** Proofs about upper and lower case. *)
From Coq Require Import List Arith ZArith NArith Bool Lia.
From Verif Require Import Base Text_Model Text_Spec Text_Proofs1 Text_Proofs2 Case_Model Case_Spec.
Import ListNotations.
Local Open Scope N_scope.

(** ** code points *)
Lemma num_rows_ok p : num_rows p = length (table p).
Proof. destruct p; vm_compute; reflexivity. Qed.

Definition key (low : bool) (r : N * N) : N := if low then fst r else snd r.
Definition look (p : profile) (low : bool) (a : N) : option N :=
  option_map (key (negb low)) (find (fun r => key low r =? a) (table p)).
Definition foldp (p : profile) (low : bool) (a : N) : N := match look p low a with Some b => b | None => tocase low a end.

Lemma search_find t cp low : search (length t) t cp low = Ok (option_map (key (negb low)) (find (fun r => key low r =? cp) t)).
Proof.
  induction t as [|[u l] t IH]; [reflexivity|]. cbn [length search find key fst snd].
  destruct low; cbn [negb key fst snd] in *; destruct (_ =? cp); cbn [option_map key negb fst snd]; auto.
Qed.
Lemma known_case_look p cp low : known_case p cp low = Ok (look p low cp).
Proof. unfold known_case. rewrite num_rows_ok. apply search_find. Qed.

Definition agree (t : list (N * N)) : bool :=
  forallb (fun r => forallb (fun s => implb (fst r =? fst s) (snd r =? snd s) && implb (snd r =? snd s) (fst r =? fst s)) t) t.
Lemma agree_ok p : agree (table p) = true.
Proof. destruct p; vm_compute; reflexivity. Qed.
Lemma pair_fun p low a b c : pair_of p low a b -> pair_of p low a c -> b = c.
Proof.
  intros H1 H2. pose proof (agree_ok p) as A. unfold agree in A. rewrite forallb_forall in A.
  destruct low; cbn [pair_of] in *.
  - specialize (A _ H1). rewrite forallb_forall in A. specialize (A _ H2). cbn [fst snd] in A.
    apply andb_prop in A as [A _]. rewrite N.eqb_refl in A. cbn [implb] in A. now apply N.eqb_eq in A.
  - specialize (A _ H1). rewrite forallb_forall in A. specialize (A _ H2). cbn [fst snd] in A.
    apply andb_prop in A as [_ A]. rewrite N.eqb_refl in A. cbn [implb] in A. now apply N.eqb_eq in A.
Qed.
Lemma look_some p low a b : look p low a = Some b -> pair_of p low a b.
Proof.
  unfold look. destruct (find _ _) as [[u l]|] eqn:F; [|discriminate]. intros H. injection H as H.
  apply find_some in F as [I E]. apply N.eqb_eq in E. destruct low; cbn [key negb fst snd pair_of] in *; subst; exact I.
Qed.
Lemma look_none p low a : look p low a = None -> forall x, ~ pair_of p low a x.
Proof.
  unfold look. destruct (find _ _) eqn:F; [discriminate|]. intros _ x I.
  destruct low; cbn [pair_of] in I; apply (find_none _ _ F) in I; cbn [key fst snd] in I; rewrite N.eqb_refl in I; discriminate.
Qed.
Lemma tocase_ok low a : case_letter low a (tocase low a).
Proof.
  unfold case_letter, letter, other, tocase, tolower, toupper. destruct low.
  - destruct (N.leb_spec 65 a), (N.leb_spec a 90); cbn [andb]; (left; split; [lia|reflexivity]) || (right; split; [lia|reflexivity]).
  - destruct (N.leb_spec 97 a), (N.leb_spec a 122); cbn [andb]; (left; split; [lia|reflexivity]) || (right; split; [lia|reflexivity]).
Qed.
Lemma case_letter_fun low a b : case_letter low a b <-> b = tocase low a.
Proof.
  split; [|intros ->; apply tocase_ok]. intros H. destruct H as [[L ->]|[L ->]], (tocase_ok low a) as [[L' E]|[L' E]]; congruence || contradiction.
Qed.
Lemma case_point_fold p low a b : case_point p low a b <-> b = foldp p low a.
Proof.
  unfold foldp. split.
  - intros [I|[N I]].
    + destruct (look p low a) as [c|] eqn:L.
      * apply look_some in L. eapply pair_fun; eauto.
      * exfalso. exact (look_none _ _ _ L b I).
    + destruct (look p low a) as [c|] eqn:L.
      * apply look_some in L. exfalso. exact (N c L).
      * now apply case_letter_fun.
  - intros ->. destruct (look p low a) as [c|] eqn:L.
    + left. now apply look_some.
    + right. split; [now apply look_none|apply tocase_ok].
Qed.

Definition pts (p : profile) : list N := map fst (table p) ++ map snd (table p) ++ map N.of_nat (seq 0 128).
Lemma off_points p a low : ~ In a (pts p) -> foldp p low a = a.
Proof.
  intros H. unfold pts in H. unfold foldp. destruct (look p low a) as [b|] eqn:L.
  - apply look_some in L. exfalso. apply H. destruct low; cbn [pair_of] in L.
    + apply in_or_app. left. apply (in_map fst) in L. exact L.
    + apply in_or_app. right. apply in_or_app. left. apply (in_map snd) in L. exact L.
  - assert (128 <= a).
    { destruct (N.ltb_spec a 128) as [X|X]; [|lia]. exfalso. apply H. apply in_or_app. right. apply in_or_app. right.
      apply in_map_iff. exists (N.to_nat a). split; [apply N2Nat.id|]. apply in_seq. lia. }
    unfold tocase, tolower, toupper. destruct low.
    + destruct (N.leb_spec 65 a), (N.leb_spec a 90); cbn [andb]; lia.
    + destruct (N.leb_spec 97 a), (N.leb_spec a 122); cbn [andb]; lia.
Qed.
Definition on_points (P : profile -> N -> bool) : bool :=
  forallb (fun p => forallb (P p) (pts p)) [Generic; Turkish; Vietnamese; Lithuanian; Kurmanji; Cebuano; Kazakh; Mongolian; Guarani; Ukrainian].
Lemma on_points_ok P : on_points P = true -> forall p a, In a (pts p) -> P p a = true.
Proof.
  intros H p a I. unfold on_points in H. rewrite forallb_forall in H.
  assert (In p [Generic; Turkish; Vietnamese; Lithuanian; Kurmanji; Cebuano; Kazakh; Mongolian; Guarani; Ukrainian]) as J.
  { destruct p; repeat (try (left; reflexivity); right). }
  specialize (H _ J). rewrite forallb_forall in H. auto.
Qed.
Definition good_point (p : profile) (a : N) : bool :=
  (foldp p true (foldp p true a) =? foldp p true a) && (foldp p false (foldp p false a) =? foldp p false a)
  && (foldp p true (foldp p false a) =? foldp p true a) && (foldp p false (foldp p true a) =? foldp p false a)
  && implb (0 <? a) (0 <? foldp p true a) && implb (0 <? a) (0 <? foldp p false a)
  && (foldp p true a <? 0x20000) && (foldp p false a <? 0x20000)
  && implb (a <? 0x800) (foldp p true a <? 0x800) && implb (a <? 0x800) (foldp p false a <? 0x800).
Lemma good_points : on_points good_point = true.
Proof. vm_compute. reflexivity. Qed.
Lemma point_facts p low a :
  foldp p low (foldp p low a) = foldp p low a /\ foldp p low (foldp p (negb low) a) = foldp p low a
  /\ (0 < a -> 0 < foldp p low a) /\ (foldp p low a = a \/ foldp p low a < 0x20000) /\ (a < 0x800 -> foldp p low a < 0x800).
Proof.
  destruct (in_dec N.eq_dec a (pts p)) as [I|I].
  - pose proof (on_points_ok _ good_points p a I) as G. unfold good_point in G.
    repeat match goal with H : (_ && _)%bool = true |- _ => apply andb_prop in H as [? ?] end.
    repeat match goal with H : (_ =? _) = true |- _ => apply N.eqb_eq in H
                         | H : (_ <? _) = true |- _ => apply N.ltb_lt in H end.
    assert (T : forall x y, implb x y = true -> x = true -> y = true) by (intros [] []; auto).
    destruct low; cbn [negb]; (split; [assumption|split; [assumption|split; [|split; [right; assumption|]]]]);
      intros L; apply N.ltb_lt in L;
      match goal with H : implb ?x ?y = true, L : ?x = true |- ?g => let E := fresh in pose proof (T _ _ H L) as E; apply N.ltb_lt in E; exact E end.
  - rewrite ?(off_points p a low I), ?(off_points p a (negb low) I), ?(off_points p a low I). repeat split; auto.
Qed.

(** ** UTF-8 *)
Lemma utf8_unique a s : utf8 a s -> forall t, utf8 a t -> s = t.
Proof.
  intros H t H'. inversion H; subst; inversion H'; subst; change (2^7) with 128 in *; change (2^6) with 64 in *;
    change (2^5) with 32 in *; change (2^4) with 16 in *; change (2^3) with 8 in *; change (2^12) with 4096 in *;
    change (2^11) with 2048 in *; change (2^18) with 262144 in *; change (2^16) with 65536 in *; try lia; repeat f_equal; lia.
Qed.
Lemma utf8_decode_unique a b s : utf8 a s -> utf8 b s -> a = b.
Proof. intros H1 H2. pose proof (decode_utf8 a s [] H1). pose proof (decode_utf8 b s [] H2). congruence. Qed.
Lemma utf8_small a s : utf8 a s -> (a < 0x800 <-> (length s <= 2)%nat) /\ (length s = 1%nat -> s = [a]) /\ (a < 128 -> length s = 1%nat).
Proof.
  intros H; inversion H; subst; change (2^7) with 128 in *; change (2^6) with 64 in *;
    change (2^5) with 32 in *; change (2^4) with 16 in *; change (2^3) with 8 in *; change (2^12) with 4096 in *;
    change (2^11) with 2048 in *; change (2^18) with 262144 in *; change (2^16) with 65536 in *; cbn [length];
    (split; [split; intros; lia|split; intros; [try reflexivity; lia|lia]]).
Qed.
Lemma utf8_of_char a c : utf8 a c -> is_char UTF8 c -> 0 < a.
Proof.
  intros U (l & r & E & _ & F). destruct (N.eq_dec a 0) as [->|]; [|lia].
  destruct (utf8_small 0 c U) as [_ [S1 S2]]. rewrite (S1 (S2 ltac:(lia))) in F. inversion F; subst. lia.
Qed.

(** ** characters *)
Definition lat (low : bool) (b : N) : N :=
  if 128 <=? b then if low then if (192 <=? b) && (b <=? 223) then b + 32 else b else if (224 <=? b) && (b <=? 255) then b - 32 else b
  else tocase low b.
Lemma case_latin_fun low a b : case_latin low a b <-> b = lat low a.
Proof.
  unfold case_latin, lat. rewrite case_letter_fun. destruct (N.leb_spec 128 a).
  - unfold high_letter, other. split.
    + intros [[X _]|[_ X]]; [lia|]. destruct low.
      * destruct (N.leb_spec 192 a), (N.leb_spec a 223); cbn [andb]; lia.
      * destruct (N.leb_spec 224 a), (N.leb_spec a 255); cbn [andb]; lia.
    + intros ->. right. split; [lia|]. destruct low.
      * destruct (N.leb_spec 192 a), (N.leb_spec a 223); cbn [andb]; lia.
      * destruct (N.leb_spec 224 a), (N.leb_spec a 255); cbn [andb]; lia.
  - split; [intros [[_ X]|[X _]]; [exact X|lia]|auto].
Qed.
Lemma tocase_idem low a : tocase low (tocase low a) = tocase low a.
Proof.
  unfold tocase, tolower, toupper. destruct low.
  - destruct (N.leb_spec 65 a), (N.leb_spec a 90); cbn [andb]; [destruct (N.leb_spec (a + 32) 90); [lia|rewrite andb_false_r; reflexivity]|..];
      destruct (N.leb_spec 65 a), (N.leb_spec a 90); cbn [andb]; lia.
  - destruct (N.leb_spec 97 a), (N.leb_spec a 122); cbn [andb]; [destruct (N.leb_spec 97 (a - 32)); [lia|reflexivity]|..];
      destruct (N.leb_spec 97 a), (N.leb_spec a 122); cbn [andb]; lia.
Qed.
Lemma tocase_cross low a : tocase low (tocase (negb low) a) = tocase low a.
Proof.
  unfold tocase, tolower, toupper. destruct low; cbn [negb].
  - destruct (N.leb_spec 97 a), (N.leb_spec a 122); cbn [andb]; try reflexivity.
    destruct (N.leb_spec 65 (a - 32)), (N.leb_spec (a - 32) 90), (N.leb_spec 65 a), (N.leb_spec a 90); cbn [andb]; lia.
  - destruct (N.leb_spec 65 a), (N.leb_spec a 90); cbn [andb]; try reflexivity.
    destruct (N.leb_spec 97 (a + 32)), (N.leb_spec (a + 32) 122), (N.leb_spec 97 a), (N.leb_spec a 122); cbn [andb]; lia.
Qed.
Lemma tocase_range low a : 0 < a < 256 -> 0 < tocase low a < 256 /\ (a < 128 -> tocase low a < 128) /\ (128 <= a -> 128 <= tocase low a).
Proof.
  unfold tocase, tolower, toupper. destruct low.
  - destruct (N.leb_spec 65 a), (N.leb_spec a 90); cbn [andb]; lia.
  - destruct (N.leb_spec 97 a), (N.leb_spec a 122); cbn [andb]; lia.
Qed.
Definition lat_good (b : N) : bool :=
  (lat true (lat true b) =? lat true b) && (lat false (lat false b) =? lat false b)
  && (lat true (lat false b) =? lat true b) && (lat false (lat true b) =? lat false b)
  && implb (0 <? b) (0 <? lat true b) && implb (0 <? b) (0 <? lat false b) && (lat true b <? 256) && (lat false b <? 256).
Lemma lat_all : forallb lat_good all_bytes = true.
Proof. vm_compute. reflexivity. Qed.
Lemma lat_out low a : 256 <= a -> lat low a = a.
Proof.
  intros H. unfold lat. destruct (N.leb_spec 128 a); [|lia]. destruct low.
  - destruct (N.leb_spec 192 a), (N.leb_spec a 223); cbn [andb]; lia.
  - destruct (N.leb_spec 224 a), (N.leb_spec a 255); cbn [andb]; lia.
Qed.
Lemma lat_facts low a : lat low (lat low a) = lat low a /\ lat low (lat (negb low) a) = lat low a
  /\ (0 < a < 256 -> 0 < lat low a < 256).
Proof.
  destruct (N.ltb_spec a 256) as [L|L].
  - pose proof (by_cases _ lat_all a L) as G. unfold lat_good in G.
    repeat match goal with H : (_ && _)%bool = true |- _ => apply andb_prop in H as [? ?] end.
    repeat match goal with H : (_ =? _) = true |- _ => apply N.eqb_eq in H
                         | H : (_ <? _) = true |- _ => apply N.ltb_lt in H end.
    assert (T : forall x y, implb x y = true -> x = true -> y = true) by (intros [] []; auto).
    destruct low; cbn [negb]; (split; [assumption|split; [assumption|]]);
      intros Q; (split; [|assumption]); assert (L0 : (0 <? a) = true) by (apply N.ltb_lt; lia);
      match goal with H : implb ?x (0 <? ?g) = true, L : ?x = true |- 0 < ?g => let E := fresh in pose proof (T _ _ H L) as E; apply N.ltb_lt in E; exact E end.
  - rewrite ?(lat_out low a L), ?(lat_out (negb low) a L), ?(lat_out low a L). repeat split; lia.
Qed.

Lemma case_of_fun e p low c d d' : case_of e p low c d -> case_of e p low c d' -> d = d'.
Proof.
  destruct e; cbn [case_of].
  all: swap 2 3.
  - intros (a & b & -> & -> & H) (a' & b' & E & -> & H'). injection E as <-. apply case_letter_fun in H, H'. congruence.
  - intros [(a & b & -> & -> & H)|[L ->]] [(a' & b' & E & -> & H')|[L' ->]]; try (cbn [length] in *; discriminate || congruence).
    + injection E as <-. apply case_letter_fun in H, H'. congruence.
    + subst c. discriminate.
  - intros (a & b & -> & -> & H) (a' & b' & E & -> & H'). injection E as <-. apply case_latin_fun in H, H'. congruence.
  - intros (a & b & Ua & Ub & H) (a' & b' & Ua' & Ub' & H'). pose proof (utf8_decode_unique _ _ _ Ua Ua'). subst a'.
    apply case_point_fold in H, H'. subst. eapply utf8_unique; eauto.
Qed.
Lemma case_of_idem e p low c d : case_of e p low c d -> case_of e p low d d.
Proof.
  destruct e; cbn [case_of].
  all: swap 2 3.
  - intros (a & b & -> & -> & H). apply case_letter_fun in H. subst. exists (tocase low a), (tocase low a). repeat split.
    apply case_letter_fun. symmetry. apply tocase_idem.
  - intros [(a & b & -> & -> & H)|[L ->]]; [left|right; auto]. apply case_letter_fun in H. subst.
    exists (tocase low a), (tocase low a). repeat split. apply case_letter_fun. symmetry. apply tocase_idem.
  - intros (a & b & -> & -> & H). apply case_latin_fun in H. subst. exists (lat low a), (lat low a). repeat split.
    apply case_latin_fun. symmetry. apply lat_facts.
  - intros (a & b & Ua & Ub & H). exists b, b. repeat split; auto. apply case_point_fold in H. subst. apply case_point_fold.
    symmetry. apply point_facts.
Qed.
Lemma case_of_cross e p low c u l : case_of e p (negb low) c u -> case_of e p low u l -> case_of e p low c l.
Proof.
  destruct e; cbn [case_of].
  all: swap 2 3.
  - intros (a & b & -> & -> & H) (a' & b' & E & -> & H'). injection E as <-. apply case_letter_fun in H, H'. subst.
    exists a, (tocase low (tocase (negb low) a)). repeat split. apply case_letter_fun. apply tocase_cross.
  - intros [(a & b & -> & -> & H)|[L ->]] [(a' & b' & E & -> & H')|[L' ->]]; try (cbn [length] in *; discriminate || congruence).
    + left. injection E as <-. apply case_letter_fun in H, H'. subst.
      exists a, (tocase low (tocase (negb low) a)). repeat split. apply case_letter_fun. apply tocase_cross.
    + subst c. discriminate.
    + right. auto.
  - intros (a & b & -> & -> & H) (a' & b' & E & -> & H'). injection E as <-. apply case_latin_fun in H, H'. subst.
    exists a, (lat low (lat (negb low) a)). repeat split. apply case_latin_fun. apply lat_facts.
  - intros (a & b & Ua & Ub & H) (a' & b' & Ua' & Ub' & H'). pose proof (utf8_decode_unique _ _ _ Ub Ua'). subst a'.
    apply case_point_fold in H, H'. subst. exists a, (foldp p low (foldp p (negb low) a)). repeat split; auto.
    apply case_point_fold. apply point_facts.
Qed.

Definition short (c : list N) : Prop := (length c <= 2)%nat.
Lemma case_of_valid e p low c d : case_of e p low c d -> valid e c ->
  valid e d /\ (length d <= 4)%nat /\ (short c -> short d) /\ (e <> UTF8 -> length d = length c).
Proof.
  intros H [(lead & rest & -> & CS & F) V]. destruct e; cbn [case_of] in H.
  all: swap 2 3.
  - destruct H as (a & b & E & -> & H). injection E as <- ->. apply case_letter_fun in H. subst b. inversion F; subst.
    destruct (tocase_range low lead ltac:(lia)) as [R _].
    split; [split; [|discriminate]|unfold short; cbn [length]; auto].
    exists (tocase low lead), []. repeat split. constructor; [exact R|constructor].
  - destruct H as [(a & b & E & -> & H)|[L ->]].
    + injection E as <- ->. apply case_letter_fun in H. subst b. inversion F; subst.
      destruct (tocase_range low lead ltac:(lia)) as (R & R1 & _).
      split; [split; [|discriminate]|unfold short; cbn [length]; auto].
      exists (tocase low lead), []. repeat split; [|constructor; [exact R|constructor]].
      cbn [length char_size] in *. destruct CS as [[? _]|[_ ?]]; [left; auto|discriminate].
    + split; [split; [|discriminate]|rewrite L; unfold short; auto]. exists lead, rest. auto.
  - destruct H as (a & b & E & -> & H). injection E as <- ->. apply case_latin_fun in H. subst b. inversion F; subst.
    destruct (lat_facts low lead) as (_ & _ & R).
    split; [split; [|discriminate]|unfold short; cbn [length]; auto].
    exists (lat low lead), []. repeat split. constructor; [apply R; lia|constructor].
  - destruct H as (a & b & Ua & Ub & H). apply case_point_fold in H. subst b.
    assert (P : 0 < a). { eapply utf8_of_char; [exact Ua|]. exists lead, rest. auto. }
    destruct (point_facts p low a) as (_ & _ & P1 & _ & P2). specialize (P1 P).
    split; [split; [apply (utf8_is_char _ _ Ub); lia|intros _; eauto]|].
    split; [apply (utf8_len _ _ Ub)|]. split; [|congruence].
    unfold short. rewrite <- (proj1 (utf8_small _ _ Ua)), <- (proj1 (utf8_small _ _ Ub)). exact P2.
Qed.

Lemma take_app c m : take (length c) (c ++ m) = Ok c.
Proof. unfold take. rewrite app_length. destruct (Nat.leb_spec (length c) (length c + length m)); [|lia]. now rewrite firstn_app, firstn_all, Nat.sub_diag, firstn_O, app_nil_r. Qed.
Lemma copy1_ok e c m : is_char e c -> copy1 e (c ++ m) = Ok (c ++ [0]).
Proof. intros H. unfold copy1. rewrite (nbytes_char e c m H). cbn [rbind]. rewrite take_app. reflexivity. Qed.

Lemma convert_char_ok e p low c m : valid e c ->
  exists d, convert_char e p low (c ++ m) = Ok (d ++ [0]) /\ case_of e p low c d.
Proof.
  intros V. pose proof V as [C U]. unfold convert_char. rewrite (nbytes_char e c m C). cbn [rbind].
  rewrite (copy1_ok e c m C). cbn [rbind]. destruct C as (lead & rest & E & CS & F). destruct e; cbn [char_size case_of] in *.
  all: swap 2 3.
  - subst c. destruct rest; [|discriminate]. exists [tocase low lead]. split; [reflexivity|].
    exists lead, (tocase low lead). repeat split. apply tocase_ok.
  - subst c. destruct CS as [[L K]|[L K]].
    + destruct rest; [|discriminate]. exists [tocase low lead]. split; [reflexivity|]. left.
      exists lead, (tocase low lead). repeat split. apply tocase_ok.
    + rewrite K. cbn [Nat.eqb]. eexists. split; [reflexivity|]. right. auto.
  - subst c. destruct rest; [|discriminate]. exists [lat low lead]. inversion F as [|? ? R _]; subst. split.
    + cbn [app map_hd]. unfold lat. rewrite (land80 lead ltac:(lia)). destruct (N.ltb_spec lead 128), (N.leb_spec 128 lead); try lia; cbn [negb]; [reflexivity|].
      destruct low; [reflexivity|]. destruct (N.leb_spec 224 lead), (N.leb_spec lead 255); cbn [andb]; reflexivity || lia.
    + exists lead, (lat low lead). repeat split. apply case_latin_fun. reflexivity.
  - destruct (U eq_refl) as [a Ua]. rewrite (decode_utf8 a c m Ua). cbn [rbind]. rewrite known_case_look. cbn [rbind].
    assert (P : 0 < a). { eapply utf8_of_char; [exact Ua|]. exists lead, rest. auto. }
    destruct (point_facts p low a) as (_ & _ & P1 & P3 & _). specialize (P1 P).
    destruct (look p low a) as [o|] eqn:L; unfold foldp in P1, P3; rewrite L in P1, P3.
    + destruct (N.ltb_spec 0 o); [|lia].
      assert (exists bs, utf8 o bs /\ code_point_to_text UTF8 o = Ok (bs ++ repeat 0 (10 - length bs))) as (bs & Ub & ->).
      { destruct P3 as [->|P3]; [|now apply encode_utf8].
        assert (a < 0x20000 \/ 0x20000 <= a) as [Q|Q] by lia; [now apply encode_utf8|].
        exfalso. assert (~ In a (pts p)) as NI.
        { intros I. assert (B : on_points (fun _ x => x <? 0x20000) = true) by (vm_compute; reflexivity).
          pose proof (on_points_ok _ B p a I) as B'. cbv beta in B'. apply N.ltb_lt in B'. lia. }
        apply NI. apply look_some in L. unfold pts. apply in_or_app. destruct low; cbn [pair_of] in L.
        - left. now apply (in_map fst) in L.
        - right. apply in_or_app. left. now apply (in_map snd) in L. }
      cbn [rbind]. exists bs. split; [apply copy1_ok; apply (utf8_is_char _ _ Ub); lia|].
      exists a, o. repeat split; auto. left. now apply look_some.
    + destruct (Nat.eqb_spec (length c) 1) as [K|K].
      * destruct (utf8_small a c Ua) as [_ [S1 _]]. rewrite (S1 K). exists [tocase low a]. split; [reflexivity|].
        pose proof (S1 K) as E'. rewrite E' in Ua. inversion Ua; subst. change (2^7) with 128 in *.
        exists a, (tocase low a). split; [exact Ua|]. split.
        -- constructor. change (2^7) with 128. destruct (tocase_range low a ltac:(lia)) as (_ & R & _). apply R. lia.
        -- right. split; [now apply look_none|apply tocase_ok].
      * exists c. split; [reflexivity|]. exists a, a. repeat split; auto. right. split; [now apply look_none|].
        apply case_letter_fun. destruct (utf8_small a c Ua) as [_ [_ S2]].
        assert (128 <= a) by (destruct (N.ltb_spec a 128); [specialize (S2 ltac:(lia)); lia|lia]).
        unfold tocase, tolower, toupper. destruct low.
        -- destruct (N.leb_spec 65 a), (N.leb_spec a 90); cbn [andb]; lia.
        -- destruct (N.leb_spec 97 a), (N.leb_spec a 122); cbn [andb]; lia.
Qed.

(** ** texts *)
Definition room (n : nat) (cs : list (list N)) : Prop := (8 <= n)%nat \/ ((5 <= n)%nat /\ Forall short cs).
Lemma room_more n n' cs : (n <= n')%nat -> room n cs -> room n' cs.
Proof. intros L [H|[H F]]; [left; lia|right; split; [lia|exact F]]. Qed.

Lemma strlen_at D j : ~ In 0 D -> strlen (D ++ 0 :: j) = Ok (length D).
Proof. intros H. apply strlen_holds. split; [exact H|eauto]. Qed.

Lemma store_ok D x j h : length h = length x -> store (D ++ x ++ j) (length D) h = Ok (D ++ h ++ j).
Proof.
  intros L. unfold store. rewrite !app_length, L.
  destruct (Nat.leb_spec (length D + length x) (length D + (length x + length j))); [|lia].
  rewrite firstn_app, firstn_all, Nat.sub_diag, firstn_O, app_nil_r.
  replace (length D + length x)%nat with (length (D ++ x)) by apply app_length.
  rewrite (app_assoc D x j), skipn_app, skipn_all, Nat.sub_diag. reflexivity.
Qed.
Lemma split_at (n : nat) (j : list N) : (n <= length j)%nat -> exists x y, j = x ++ y /\ length x = n.
Proof. intros H. exists (firstn n j), (skipn n j). split; [now rewrite firstn_skipn|]. now apply firstn_length_le. Qed.

Lemma master_loop_ok e p junk low cs : forall fuel bj D j,
  cs <> [] -> Forall (valid e) cs -> (length cs <= fuel)%nat -> ~ In 0 D -> room (length (D ++ 0 :: j)) cs ->
  exists ds j', master_loop fuel e p junk low (concat cs ++ 0 :: bj) (D ++ 0 :: j) (length D) = Ok (D ++ concat ds ++ 0 :: j')
    /\ Forall2 (case_of e p low) cs ds /\ (length (D ++ 0%N :: j) <= length (D ++ concat ds ++ 0%N :: j'))%nat.
Proof.
  induction cs as [|c cs IH]; intros fuel bj D j NE V FU N0 RM; [congruence|].
  destruct fuel as [|fuel]; [cbn [length] in FU; lia|]. cbn [master_loop concat]. rewrite <- app_assoc.
  pose proof (Forall_inv V) as Vc. pose proof (Forall_inv_tail V) as Vt. pose proof Vc as [Cc _].
  rewrite (nbytes_char e c _ Cc). cbn [rbind].
  destruct (convert_char_ok e p low c (concat cs ++ 0 :: bj) Vc) as (d & -> & CO). cbn [rbind].
  destruct (case_of_valid e p low c d CO Vc) as ((Cd & Ud) & L4 & SH & _).
  rewrite (nbytes_char e d [0] Cd). cbn [rbind].
  assert (R : exists j1, make_room junk (D ++ 0 :: j) (length D) (length d) = Ok (D ++ 0 :: j1, length D)
     /\ (length d <= length j1)%nat /\ (length j <= length j1)%nat).
  { unfold make_room. rewrite (strlen_at D j N0). cbn [rbind]. rewrite app_length in *. cbn [length] in *.
    destruct (Nat.ltb_spec (length D + S (length j)) (length D + length d + 1)) as [B|B].
    - cbv zeta. rewrite <- app_assoc. cbn [app]. rewrite (strlen_at D _ N0). cbn [rbind].
      eexists. split; [reflexivity|]. rewrite app_length, repeat_length.
      set (n := (length D + S (length j))%nat) in *.
      assert (Q : (n + length d <= n * 3 / 2)%nat).
      { apply Nat.div_le_lower_bound; [lia|]. destruct RM as [RM|[RM FS]]; [lia|].
        pose proof (SH (Forall_inv FS)) as S2. unfold short in S2. lia. }
      subst n. lia.
    - eexists. split; [reflexivity|]. lia. }
  destruct R as (j1 & -> & LD & LJ). cbn [rbind]. rewrite take_app. cbn [rbind].
  destruct (split_at (length d) j1 LD) as (x & y & -> & LX).
  change (D ++ 0 :: x ++ y) with (D ++ (0 :: x) ++ y).
  rewrite (store_ok D (0 :: x) y (d ++ [0])) by (rewrite app_length; cbn [length]; lia). cbn [rbind].
  rewrite adv_app. cbn [rbind].
  destruct cs as [|c2 cs].
  - cbn [concat app rd rbind]. unfold end_of_text. rewrite N.eqb_refl. exists [d], y. cbn [concat]. rewrite app_nil_r.
    repeat split.
    + now rewrite <- !app_assoc.
    + repeat constructor. exact CO.
    + rewrite !app_length in *. cbn [length] in *. lia.
  - pose proof (Forall_inv Vt) as [Cc2 _]. destruct (hd_char e c2 (concat cs ++ 0 :: bj) Cc2) as (b & r & E & B0 & _).
    cbn [concat] in *. rewrite <- app_assoc, E. cbn [rd rbind]. unfold end_of_text. destruct (N.eqb_spec b 0); [contradiction|].
    rewrite <- E. rewrite app_assoc.
    replace (D ++ (d ++ [0]) ++ y) with ((D ++ d) ++ 0 :: y) by (now rewrite <- !app_assoc).
    replace (length D + length d)%nat with (length (D ++ d)) by apply app_length.
    assert (LL : (length (D ++ 0%N :: j) <= length ((D ++ d) ++ 0%N :: y))%nat).
    { rewrite !app_length in *. cbn [length] in *. lia. }
    destruct (IH fuel bj (D ++ d) y) as (ds & j' & M & F2 & LE).
    + discriminate.
    + exact Vt.
    + cbn [length] in FU |- *. lia.
    + intros I. apply in_app_or in I as [I|I]; [contradiction|]. destruct Cd as (? & ? & ? & ? & FF).
      rewrite Forall_forall in FF. specialize (FF _ I). lia.
    + eapply room_more; [exact LL|]. destruct RM as [RM|[RM FS]]; [left; exact RM|right; split; [exact RM|now inversion FS]].
    + rewrite M. exists (d :: ds), j'. cbn [concat]. rewrite <- !app_assoc in *. repeat split.
      * constructor; assumption.
      * lia.
Qed.

Lemma valid_chars e cs : Forall (valid e) cs -> Forall (is_char e) cs.
Proof. intros H. eapply Forall_impl; [|exact H]. intros c [C _]. exact C. Qed.
Lemma chrlen_holds e m cs : text_in e m cs -> chrlen e m = Ok (length cs).
Proof.
  intros [(N0 & j & ->) V]. unfold chrlen. apply valid_chars in V. apply chrlen_loop_ok; [exact V|].
  rewrite app_length. cbn [length]. pose proof (concat_len e cs V). lia.
Qed.
Lemma forall2_valid e p low cs ds : Forall2 (case_of e p low) cs ds -> Forall (valid e) cs -> Forall (valid e) ds.
Proof.
  induction 1 as [|c d cs ds H F IH]; intros V; constructor; inversion V; subst; auto. now apply (case_of_valid e p low c d).
Qed.
Lemma forall2_short e p low cs ds : Forall2 (case_of e p low) cs ds -> Forall (valid e) cs -> Forall short cs -> Forall short ds.
Proof.
  induction 1 as [|c d cs ds H F IH]; intros V S; constructor; inversion V; inversion S; subst; auto.
  eapply (case_of_valid e p low c d); eauto.
Qed.

Lemma to_master_ok e p junk low static m cs all : text_in e m cs -> enough static cs all -> incl cs all ->
  exists out ds, to_master e p junk low static m = Ok out /\ Forall2 (case_of e p low) cs ds /\ text_in e out ds
    /\ room (length out) all /\ (match static with Some b => (length b <= length out)%nat | None => True end).
Proof.
  intros T EN IN. pose proof T as [(N0 & bj & ->) V]. unfold to_master.
  assert (A : exists x j, (match static with
               | Some out => Ok out
               | None => rbind (chrlen e (concat cs ++ 0 :: bj)) (fun n => Ok (repeat 0 (Nat.max (n + 1) 5)))
               end) = Ok (x :: j) /\ room (length (x :: j)) all /\ (match static with Some b => (length b <= length (x :: j))%nat | None => True end)).
  { destruct static as [b|].
    - destruct b as [|x j]; [destruct EN as [E|[E _]]; cbn [length] in E; lia|]. exists x, j. split; [reflexivity|]. split; [|lia].
      destruct EN as [E|[E F]]; [left; exact E|right; split; [exact E|exact F]].
    - rewrite (chrlen_holds e _ cs T). cbn [rbind].
      assert (L : (5 <= Nat.max (length cs + 1) 5)%nat) by lia.
      assert (L' : (7 <= length cs -> 8 <= Nat.max (length cs + 1) 5)%nat) by lia.
      destruct (Nat.max (length cs + 1) 5) as [|n] eqn:E; [lia|]. exists 0, (repeat 0 n). split; [reflexivity|]. split; [|exact I].
      cbn [length]. rewrite repeat_length. destruct EN as [Q|[Q F]]; [left; auto|right; auto]. }
  destruct A as (x & j & -> & RM & LS). cbn [rbind].
  assert (SE : store (x :: j) 0 [0] = Ok (0 :: j)) by (apply (store_ok [] [x] j [0]); reflexivity).
  rewrite SE. cbn [rbind].
  destruct cs as [|c cs].
  - cbn [concat app rd rbind]. rewrite N.eqb_refl. exists (0 :: j), []. repeat split.
    + constructor.
    + intros [].
    + exists j. reflexivity.
    + constructor.
    + exact RM.
    + exact LS.
  - pose proof (Forall_inv V) as [Cc _]. destruct (hd_char e c (concat cs ++ 0 :: bj) Cc) as (b & r & E & B0 & _).
    cbn [concat]. rewrite <- app_assoc, E. cbn [rd rbind]. destruct (N.eqb_spec b 0); [contradiction|]. rewrite <- E, app_assoc.
    destruct (master_loop_ok e p junk low (c :: cs) (S (length ((c ++ concat cs) ++ 0 :: bj))) bj [] j) as (ds & j' & M & F2 & LE).
    + discriminate.
    + exact V.
    + pose proof (concat_len e (c :: cs) (valid_chars e _ V)) as Q. cbn [concat] in Q. rewrite app_length. cbn [length] in *. lia.
    + intros [].
    + cbn [app]. destruct RM as [RM|[RM F]]; [left; exact RM|right; split; [exact RM|]].
      rewrite Forall_forall in *. auto.
    + cbn [concat app length] in M. rewrite M. cbn [app] in *. exists (concat ds ++ 0 :: j'), ds.
      pose proof (forall2_valid e p low _ _ F2 V) as Vd.
      repeat split; auto.
      * apply (chars_no0 e). now apply valid_chars.
      * exists j'. reflexivity.
      * eapply room_more; [exact LE|exact RM].
      * destruct static; [|exact I]. cbn [length] in *. lia.
Qed.

Lemma case_change_ok e p junk low static dst m cs all : text_in e m cs -> enough static cs all -> incl cs all ->
  exists dst' out ds, case_change e p junk low static dst m = Ok (dst', out) /\ Forall2 (case_of e p low) cs ds
    /\ text_in e dst' ds /\ text_in e out ds
    /\ room (length out) all /\ (match static with Some b => (length b <= length out)%nat | None => True end).
Proof.
  intros T EN IN. destruct (to_master_ok e p junk low static m cs all T EN IN) as (out & ds & TM & F2 & TI & RM & LS).
  unfold case_change. rewrite TM. cbn [rbind]. pose proof TI as [H Vd]. rewrite (strlen_holds _ _ H). cbn [rbind]. cbv zeta.
  pose proof H as (N0 & j & E). assert (TK : take (length (concat ds)) out = Ok (concat ds)) by (rewrite E; apply take_app).
  rewrite TK. cbn [rbind].
  set (n := length (concat ds)) in *.
  set (dst1 := if Nat.ltb (length dst) (n + 1) then _ else _).
  assert (L : (n + 1 <= length dst1)%nat).
  { subst dst1. destruct (Nat.ltb_spec (length dst) (n + 1)); [rewrite app_length, repeat_length; lia|lia]. }
  clearbody dst1. destruct (split_at (n + 1) dst1 L) as (x & y & -> & LX).
  assert (SE : store (x ++ y) 0 (concat ds ++ [0]) = Ok ((concat ds ++ [0]) ++ y)).
  { apply (store_ok [] x y). rewrite app_length. cbn [length]. fold n. lia. }
  rewrite SE. cbn [rbind].
  exists ((concat ds ++ [0]) ++ y), out, ds. split; [reflexivity|]. split; [exact F2|]. split; [|auto].
  split; [|exact Vd]. split; [exact N0|]. exists y. now rewrite <- app_assoc.
Qed.

Lemma forall2_fun e p low cs ds : Forall2 (case_of e p low) cs ds -> forall ds', Forall2 (case_of e p low) cs ds' -> ds = ds'.
Proof.
  induction 1 as [|c d cs ds H F IH]; intros ds' F'; inversion F'; subst; [reflexivity|]. f_equal; [eapply case_of_fun; eauto|auto].
Qed.
