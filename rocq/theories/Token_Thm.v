From Coq Require Import List ZArith Arith Bool Ascii String Lia.
From Verif Require Import Base Token_Model Token_Spec Token_Proofs.
Import ListNotations.
Open Scope res_scope.

Definition txt (s : string) : text := list_ascii_of_string s.

(** C10: for two non-empty texts the edit distance is the least number of insertions,
    deletions and replacements of a character that turn one into the other. *)
Theorem C10_edit_distance_minimal : forall s t, s <> [] -> t <> [] ->
  exists k, edit_distance s t = Ok k /\ min_edits s t k.
Proof.
  intros s t Hs Ht. destruct (edit_distance_table s t Hs Ht) as (v & E & H).
  exists v. split; [exact E|]. apply min_script_edits. exact H.
Qed.
Print Assumptions C10_edit_distance_minimal.

(** C10 with an empty side: the result is 0 whatever the other text. *)
Theorem C10_empty_side : forall s t, s = [] \/ t = [] -> edit_distance s t = Ok 0.
Proof. intros [|a s] [|b t] [H|H]; try discriminate; reflexivity. Qed.
Print Assumptions C10_empty_side.

(** so the unrestricted claim is false. *)
Theorem C10_edit_distance_refuted : exists s t k,
  edit_distance s t = Ok k /\ ~ min_edits s t k.
Proof.
  exists [], (txt "ab"), 0. split; [reflexivity|]. intros [H _]. inversion H.
Qed.
Print Assumptions C10_edit_distance_refuted.

(** C11: what equivalence means: the fragment marks decide between equality, common beginning,
    common ending and (for two beginnings) containment. *)
Theorem C11_equivalence_meaning : forall o1 o2 t1 t2 x1 x2 t1' t2',
  get_text o1 t1 = Ok (x1, t1') -> get_text o2 t2 = Ok (x2, t2') ->
  exists b, is_equivalent o1 t1 o2 t2 = Ok b /\
    (b = true <->
     same_word (if op_fragok o1 then tk_frag t1' else NOT_FRAGMENT)
               (if op_fragok o1 then tk_frag t2' else NOT_FRAGMENT)
               (compared_text o1 x1) (compared_text o1 x2)).
Proof.
  intros o1 o2 t1 t2 x1 x2 t1' t2' H1 H2. unfold is_equivalent. rewrite H1. cbn [rbind]. rewrite H2. cbn [rbind].
  eexists. split; [reflexivity|].
  set (a := compared_text o1 x1). set (b := compared_text o1 x2).
  assert (HE : (if list_eq_dec ascii_dec a b then true else false) = true <-> a = b).
  { destruct (list_eq_dec ascii_dec a b); split; auto; discriminate. }
  destruct (op_fragok o1); [|exact HE].
  destruct (tk_frag t1'), (tk_frag t2'); simpl;
    try exact HE; try rewrite orb_true_iff; rewrite ?found_anywhere_spec, ?found_first_spec, ?find_tail_spec;
    try reflexivity; split; try discriminate; intros [].
Qed.
Print Assumptions C11_equivalence_meaning.

(** C11: under common options, equivalence does not depend on which token is asked. *)
Theorem C11_equivalence_symmetric : forall o t1 t2 b,
  is_equivalent o t1 o t2 = Ok b -> is_equivalent o t2 o t1 = Ok b.
Proof.
  intros o t1 t2 b H. unfold is_equivalent in *.
  destruct (get_text o t1) as [[x1 t1']| | |]; try discriminate. cbn [rbind] in *.
  destruct (get_text o t2) as [[x2 t2']| | |]; try discriminate. cbn [rbind] in *.
  cbn [rbind]. rewrite <- H. f_equal. clear H.
  set (a := compared_text o x1). set (c := compared_text o x2).
  assert (HE : (if list_eq_dec ascii_dec c a then true else false) = if list_eq_dec ascii_dec a c then true else false).
  { destruct (list_eq_dec ascii_dec c a), (list_eq_dec ascii_dec a c); congruence. }
  destruct (op_fragok o); [|exact HE].
  destruct (tk_frag t1'), (tk_frag t2'); try exact HE; try reflexivity; apply orb_comm.
Qed.
Print Assumptions C11_equivalence_symmetric.

(** C11: a token is the same word as itself, under any options. *)
Theorem C11_equivalence_reflexive : forall o t x t',
  get_text o t = Ok (x, t') -> is_equivalent o t o t = Ok true.
Proof.
  intros o t x t' H.
  destruct (C11_equivalence_meaning o o t t x x t' t' H H) as (b & -> & Hb). f_equal. apply Hb.
  destruct (op_fragok o); [|reflexivity]. destruct (tk_frag t'); simpl.
  - reflexivity.
  - left. exists [], []. simpl. rewrite app_nil_r. reflexivity.
  - left. exists []. reflexivity.
Qed.
Print Assumptions C11_equivalence_reflexive.

(** Two beginnings count as the same word although no word begins with both. *)
Theorem C11_common_beginning_refuted : exists o t1 t2 x1 x2 t1' t2',
  get_text o t1 = Ok (x1, t1') /\ get_text o t2 = Ok (x2, t2') /\
  tk_frag t1' = BEGIN_FRAGMENT /\ tk_frag t2' = BEGIN_FRAGMENT /\
  is_equivalent o t1 o t2 = Ok true /\ ~ (begins_with x1 x2 \/ begins_with x2 x1).
Proof.
  exists {| op_optdel := true; op_fragok := true; op_case := true |},
    (new_token (txt "abc-")), (new_token (txt "b-")).
  do 4 eexists. split; [vm_compute; reflexivity|]. split; [vm_compute; reflexivity|].
  split; [reflexivity|]. split; [reflexivity|]. split; [vm_compute; reflexivity|].
  intros [(r & H)|(r & H)]; discriminate.
Qed.
Print Assumptions C11_common_beginning_refuted.

(** C12: overlap is sharing an instant, end points included; it is symmetric. *)
Theorem C12_overlap_exact : forall a b,
  (to_start a <= to_end a)%Z -> (to_start b <= to_end b)%Z ->
  (overlap_with a b = true <-> share_instant a b).
Proof.
  intros a b Ha Hb. unfold overlap_with, share_instant.
  destruct (Z.leb_spec (to_start a) (to_start b)) as [H|H]; rewrite Z.leb_le.
  - split; [intros H1; exists (to_start b); lia|intros (x & Hx); lia].
  - split; [intros H1; exists (to_start a); lia|intros (x & Hx); lia].
Qed.
Print Assumptions C12_overlap_exact.

Theorem C12_overlap_symmetric : forall a b,
  (to_start a <= to_end a)%Z -> (to_start b <= to_end b)%Z ->
  overlap_with a b = overlap_with b a.
Proof.
  intros a b Ha Hb. apply eq_true_iff_eq. rewrite !C12_overlap_exact by assumption.
  unfold share_instant. split; intros (x & H); exists x; tauto.
Qed.
Print Assumptions C12_overlap_symmetric.

(** C13: for real times that are not both multiples of 10^9, the computation ends and gives
    the largest power of ten dividing both. *)
Lemma safe_loop_ok : forall fuel t k, (k + fuel = 11)%nat ->
  (0 <= to_start t)%Z -> (0 <= to_end t)%Z ->
  ~ ((10 ^ 9 | to_start t)%Z /\ (10 ^ 9 | to_end t)%Z) ->
  (10 ^ Z.of_nat k | to_start t)%Z -> (10 ^ Z.of_nat k | to_end t)%Z -> (k <= 8)%nat ->
  exists d, safe_divider_loop fuel t k = Ok d /\ largest_common_power (to_start t) (to_end t) d.
Proof.
  induction fuel as [|fuel IH]; intros t k Hk Hs He Hn Hds Hde Hk8; [lia|].
  cbn [safe_divider_loop]. cbn zeta.
  assert (Hp : (10 ^ Z.of_nat (S k) <= 10 ^ 9)%Z) by (apply Z.pow_le_mono_r; lia).
  assert (Hpos : (0 < 10 ^ Z.of_nat (S k))%Z) by (apply Z.pow_pos_nonneg; lia).
  destruct (Z.ltb_spec 2147483647 (10 ^ Z.of_nat (S k))) as [H|_].
  { exfalso. change (10 ^ 9)%Z with 1000000000%Z in Hp. lia. }
  destruct (((to_start t mod 10 ^ Z.of_nat (S k) =? 0) && (to_end t mod 10 ^ Z.of_nat (S k) =? 0))%Z%bool) eqn:E.
  - apply andb_prop in E. destruct E as [E1 E2]. apply Z.eqb_eq in E1, E2.
    apply Z.mod_divide in E1; [|lia]. apply Z.mod_divide in E2; [|lia].
    destruct (Nat.eq_dec (S k) 9) as [E9|E9].
    + exfalso. apply Hn. rewrite E9 in E1, E2. split; assumption.
    + apply IH; auto; lia.
  - exists (10 ^ Z.of_nat k)%Z. replace (S k - 1)%nat with k by lia. split; [reflexivity|].
    exists (Z.of_nat k). split; [lia|]. split; [reflexivity|]. split; [exact Hds|]. split; [exact Hde|].
    intros [H1 H2].
    assert (Hpow : (10 * 10 ^ Z.of_nat k = 10 ^ Z.of_nat (S k))%Z).
    { rewrite Nat2Z.inj_succ, Z.pow_succ_r; lia. }
    rewrite Hpow in H1, H2.
    apply Z.mod_divide in H1; [|lia]. apply Z.mod_divide in H2; [|lia]. rewrite H1, H2 in E. discriminate.
Qed.

Theorem C13_divider_is_largest_power : forall t,
  (0 <= to_start t)%Z -> (0 <= to_end t)%Z ->
  ~ ((10 ^ 9 | to_start t)%Z /\ (10 ^ 9 | to_end t)%Z) ->
  exists d, time_safe_divider t = Ok d /\ largest_common_power (to_start t) (to_end t) d.
Proof.
  intros t Hs He Hn. unfold time_safe_divider.
  destruct (Z.leb_spec 0 (to_start t)); [|lia]. destruct (Z.leb_spec 0 (to_end t)); [|lia].
  apply safe_loop_ok; auto; try lia; apply Z.divide_1_l.
Qed.
Print Assumptions C13_divider_is_largest_power.

(** Unknown times give 1. *)
Theorem C13_unknown_times : forall t, (to_start t < 0 \/ to_end t < 0)%Z -> time_safe_divider t = Ok 1%Z.
Proof.
  intros t H. unfold time_safe_divider.
  destruct (Z.leb_spec 0 (to_start t)); destruct (Z.leb_spec 0 (to_end t)); try reflexivity. lia.
Qed.
Print Assumptions C13_unknown_times.

(** An object spanning [0, 0] drives the loop past every power that fits an [int]. *)
Theorem C13_divider_terminates_refuted : exists t,
  (0 <= to_start t <= to_end t)%Z /\ time_safe_divider t = Undef.
Proof. exists {| to_start := 0; to_end := 0 |}. split; [simpl; lia|]. vm_compute. reflexivity. Qed.
Print Assumptions C13_divider_terminates_refuted.

(** ** C54: the text used for alignment *)
Lemma char_at_nth : forall s i c, nth_error s i = Some c -> char_at s (Z.of_nat i) = Ok c.
Proof.
  intros s i c H. unfold char_at. destruct (Z.ltb_spec (Z.of_nat i) 0); [lia|].
  rewrite Nat2Z.id, H. reflexivity.
Qed.

Lemma nth_last : forall (l : text) d, l <> [] -> nth_error l (List.length l - 1) = Some (List.last l d).
Proof.
  induction l as [|x l IH]; intros d H; [congruence|]. destruct l as [|y l]; [reflexivity|].
  replace (List.length (x :: y :: l) - 1) with (S (List.length (y :: l) - 1)) by (simpl; lia).
  cbn [nth_error]. rewrite (IH d) by discriminate. reflexivity.
Qed.

Lemma char_at_mid : forall (p : text) c q i, i = Z.of_nat (List.length p) ->
  char_at (p ++ c :: q) i = Ok c.
Proof.
  intros p c q i ->. apply char_at_nth. rewrite nth_error_app2 by lia.
  rewrite Nat.sub_diag. reflexivity.
Qed.

Lemma substr_mid : forall (p m q : text) a b,
  a = Z.of_nat (List.length p) -> b = Z.of_nat (List.length m) ->
  substr (p ++ m ++ q) a b = Ok m.
Proof.
  intros p m q a b -> ->. unfold substr. rewrite !app_length.
  destruct (Z.ltb_spec (Z.of_nat (List.length p + (List.length m + List.length q))) (Z.of_nat (List.length p))); [lia|].
  destruct (Z.ltb_spec (Z.of_nat (List.length m)) 0); [lia|]. rewrite !Nat2Z.id.
  rewrite skipn_app, skipn_all, Nat.sub_diag. simpl.
  rewrite firstn_app, firstn_all, Nat.sub_diag. simpl. rewrite app_nil_r. reflexivity.
Qed.

Lemma plain_ends : forall core, plain_word core ->
  (exists a mid, core = a :: mid /\ a <> "-"%char /\ a <> "("%char) /\
  (exists mid z, core = mid ++ [z] /\ z <> "-"%char /\ z <> ")"%char).
Proof.
  intros core (a & z & mid & E & L & H1 & H2 & H3 & H4). split.
  - exists a, mid. auto.
  - exists (removelast core), z. split; [|auto]. rewrite <- L. apply app_removelast_last. rewrite E. discriminate.
Qed.

(** The unwrapping of parentheses. *)
Definition strip_optional (o : options) (s : text) : res (bool * Z * Z) :=
  if op_optdel o then
       let* a := char_at s 0 in
       let* b := (if Ascii.eqb a BEGIN_OPTIONAL_MARKER
                  then let* z := char_at s (Z.of_nat (List.length s) - 1) in
                       Ok (Ascii.eqb z END_OPTIONAL_MARKER)
                  else Ok false) in
       Ok (if b : bool then (true, 1%Z, (Z.of_nat (List.length s) - 2)%Z)
           else (false, 0%Z, Z.of_nat (List.length s)))
     else Ok (false, 0%Z, Z.of_nat (List.length s)).

Lemma strip_decorated : forall o w pre suf core, op_optdel o = true -> plain_word core ->
  strip_optional o (decorated w pre suf core) =
  Ok (w, if w then 1%Z else 0%Z, Z.of_nat (List.length (dash pre ++ core ++ dash suf))).
Proof.
  intros o w pre suf core Ho Hc. unfold strip_optional. rewrite Ho.
  destruct (plain_ends core Hc) as ((a & mid & E & Ha & Ha') & _).
  unfold decorated. set (body := dash pre ++ core ++ dash suf). destruct w.
  - change (char_at ("("%char :: body ++ [")"%char]) 0) with (Ok "("%char). cbn [rbind].
    change (Ascii.eqb "("%char BEGIN_OPTIONAL_MARKER) with true. cbn iota.
    change ("("%char :: body ++ [")"%char]) with (("("%char :: body) ++ ")"%char :: []).
    rewrite (char_at_mid ("("%char :: body) ")"%char []).
    2:{ rewrite app_length. cbn [List.length]. lia. }
    cbn [rbind]. change (Ascii.eqb ")"%char END_OPTIONAL_MARKER) with true. cbn [rbind].
    do 2 f_equal. rewrite app_length. cbn [List.length]. lia.
  - assert (exists c r, body = c :: r /\ c <> "("%char) as (c & r & Eb & Hb).
    { unfold body. rewrite E. destruct pre; simpl; do 2 eexists; split; try reflexivity; [discriminate|assumption]. }
    rewrite Eb. change (char_at (c :: r) 0) with (Ok c). cbn [rbind].
    destruct (Ascii.eqb_spec c BEGIN_OPTIONAL_MARKER) as [?|_]; [contradiction|]. reflexivity.
Qed.

Lemma clean_strip : forall o t, clean o t =
  let* (optional, start, size) := strip_optional o (tk_src t) in
  let s := tk_src t in
  if op_fragok o then
    let* a := char_at s start in
    let '(frag1, start1, size1) :=
      if Ascii.eqb a FRAGMENT_MARKER then (END_FRAGMENT, (start + 1)%Z, (size - 1)%Z)
      else (tk_frag t, start, size) in
    let* z := char_at s (start1 + size1 - 1) in
    Ok (if Ascii.eqb z FRAGMENT_MARKER
        then (optional, BEGIN_FRAGMENT, start1, (size1 - 1)%Z)
        else (optional, frag1, start1, size1))
  else Ok (optional, NOT_FRAGMENT, start, size).
Proof. reflexivity. Qed.

Definition wrap (w : bool) : text * text := if w then (["("%char], [")"%char]) else ([], []).

Lemma decorated_split : forall w pre suf core,
  decorated w pre suf core = (fst (wrap w) ++ dash pre) ++ core ++ (dash suf ++ snd (wrap w)).
Proof.
  intros [|] pre suf core; unfold decorated; simpl; rewrite <- ?app_assoc, ?app_nil_r; reflexivity.
Qed.

(** With both options on, the text of "(w)", "-w", "w-", "(-w)", ... is the bare word, and the
    flags say what the marks said. *)
Theorem C54_marks_removed : forall o w pre suf core t,
  op_optdel o = true -> op_fragok o = true -> plain_word core ->
  tk_src t = decorated w pre suf core -> tk_frag t = NOT_FRAGMENT ->
  get_text o t = Ok (core, {| tk_src := tk_src t; tk_opt := w; tk_frag := expected_fragment pre suf |}).
Proof.
  intros o w pre suf core t Ho Hf Hc Es Ef.
  unfold get_text. rewrite clean_strip, Es, (strip_decorated o w pre suf core Ho Hc), Hf. cbn [rbind]. cbn zeta.
  destruct (plain_ends core Hc) as ((a & mid & Ea & Ha & _) & (mid' & z & Ez & Hz & _)).
  set (L := List.length (dash pre ++ core ++ dash suf)).
  set (st := if w then 1%Z else 0%Z).
  assert (Hst : st = Z.of_nat (List.length (fst (wrap w)))) by (destruct w; reflexivity).
  assert (HL : L = List.length (dash pre) + List.length core + List.length (dash suf)).
  { unfold L. rewrite !app_length. lia. }
  (* first character *)
  assert (Hfirst : char_at (decorated w pre suf core) st = Ok (if pre then "-"%char else a)).
  { rewrite decorated_split. destruct pre.
    - simpl dash. rewrite <- app_assoc. cbn [app]. apply char_at_mid. exact Hst.
    - simpl dash. rewrite app_nil_r, Ea. cbn [app]. apply char_at_mid. exact Hst. }
  rewrite Hfirst. cbn [rbind].
  assert (Hcut : (if Ascii.eqb (if pre then "-"%char else a) FRAGMENT_MARKER
     then (END_FRAGMENT, (st + 1)%Z, (Z.of_nat L - 1)%Z) else (tk_frag t, st, Z.of_nat L)) =
     (expected_fragment pre false, (st + Z.of_nat (List.length (dash pre)))%Z,
        (Z.of_nat (List.length core) + Z.of_nat (List.length (dash suf)))%Z)).
  { rewrite HL, Ef. destruct pre.
    - change (Ascii.eqb "-"%char FRAGMENT_MARKER) with true. cbn iota. simpl dash. cbn [List.length expected_fragment].
      f_equal; lia.
    - destruct (Ascii.eqb_spec a FRAGMENT_MARKER) as [?|_]; [contradiction|]. simpl dash. cbn [List.length expected_fragment].
      f_equal; [f_equal|]; lia. }
  rewrite Hcut. cbn iota beta.
  assert (Hlast : char_at (decorated w pre suf core)
     (st + Z.of_nat (List.length (dash pre)) + (Z.of_nat (List.length core) + Z.of_nat (List.length (dash suf))) - 1)
     = Ok (if suf then "-"%char else z)).
  { rewrite decorated_split. destruct suf.
    - simpl (dash true). cbn [app].
      rewrite app_assoc. apply char_at_mid. rewrite Hst, !app_length. cbn [List.length]. lia.
    - simpl (dash false). cbn [app]. rewrite Ez at 1.
      replace ((fst (wrap w) ++ dash pre) ++ (mid' ++ [z]) ++ snd (wrap w))
        with (((fst (wrap w) ++ dash pre) ++ mid') ++ z :: snd (wrap w)) by (rewrite <- !app_assoc; reflexivity).
      apply char_at_mid.
      rewrite Ez, Hst, !app_length. cbn [List.length]. lia. }
  rewrite Hlast. cbn [rbind].
  assert (Hend : (if Ascii.eqb (if suf then "-"%char else z) FRAGMENT_MARKER
     then (w, BEGIN_FRAGMENT, (st + Z.of_nat (List.length (dash pre)))%Z,
            (Z.of_nat (List.length core) + Z.of_nat (List.length (dash suf)) - 1)%Z)
     else (w, expected_fragment pre false, (st + Z.of_nat (List.length (dash pre)))%Z,
            (Z.of_nat (List.length core) + Z.of_nat (List.length (dash suf)))%Z)) =
     (w, expected_fragment pre suf, (st + Z.of_nat (List.length (dash pre)))%Z, Z.of_nat (List.length core))).
  { destruct suf.
    - change (Ascii.eqb "-"%char FRAGMENT_MARKER) with true. cbn iota. simpl (dash true). cbn [List.length expected_fragment].
      f_equal; lia.
    - destruct (Ascii.eqb_spec z FRAGMENT_MARKER) as [?|_]; [contradiction|]. simpl (dash false). cbn [List.length].
      f_equal; lia. }
  rewrite Hend. cbn iota beta. rewrite decorated_split, substr_mid.
  - cbn [rbind]. reflexivity.
  - rewrite Hst, app_length. lia.
  - reflexivity.
Qed.
Print Assumptions C54_marks_removed.

(** Without the fragment option dashes are ordinary characters. *)
Theorem C54_dashes_kept : forall o w pre suf core t,
  op_optdel o = true -> op_fragok o = false -> plain_word core ->
  tk_src t = decorated w pre suf core ->
  get_text o t = Ok (decorated false pre suf core,
    {| tk_src := tk_src t; tk_opt := w; tk_frag := NOT_FRAGMENT |}).
Proof.
  intros o w pre suf core t Ho Hf Hc Es.
  unfold get_text. rewrite clean_strip, Es, (strip_decorated o w pre suf core Ho Hc), Hf. cbn [rbind].
  unfold decorated. set (body := dash pre ++ core ++ dash suf). destruct w.
  - change ("("%char :: body ++ [")"%char]) with (["("%char] ++ body ++ [")"%char]).
    rewrite substr_mid by reflexivity. reflexivity.
  - pose proof (substr_mid [] body [] 0 (Z.of_nat (List.length body)) eq_refl eq_refl) as H.
    rewrite app_nil_r in H. cbn [app] in H. rewrite H. reflexivity.
Qed.
Print Assumptions C54_dashes_kept.

(** With neither option the text is the source text. *)
Theorem C54_untouched : forall o t, op_optdel o = false -> op_fragok o = false ->
  get_text o t = Ok (tk_src t, {| tk_src := tk_src t; tk_opt := false; tk_frag := NOT_FRAGMENT |}).
Proof.
  intros o t Ho Hf. unfold get_text. rewrite clean_strip. unfold strip_optional. rewrite Ho, Hf. cbn [rbind].
  pose proof (substr_mid [] (tk_src t) [] 0 (Z.of_nat (List.length (tk_src t))) eq_refl eq_refl) as H.
  rewrite app_nil_r in H. cbn [app] in H. rewrite H. reflexivity.
Qed.
Print Assumptions C54_untouched.

(** Making a token optional changes its flag and not its word. *)
Theorem C54_become_optional : forall o w pre suf core t,
  op_optdel o = true -> op_fragok o = true -> plain_word core -> w = false ->
  tk_src t = decorated w pre suf core -> tk_frag t = NOT_FRAGMENT ->
  exists t', become_optional o t = Ok t' /\ tk_opt t' = true /\
    tk_src t' = decorated true pre suf core /\
    tk_frag t' = expected_fragment pre suf.
Proof.
  intros o w pre suf core t Ho Hf Hc -> Es Ef.
  unfold become_optional, set_source_text. cbn zeta.
  set (t1 := {| tk_src := _; tk_opt := _; tk_frag := _ |}).
  assert (E1 : tk_src t1 = decorated true pre suf core).
  { simpl. rewrite Es. unfold decorated. reflexivity. }
  pose proof (C54_marks_removed o true pre suf core t1 Ho Hf Hc E1 Ef) as G.
  unfold get_text in G. destruct (clean o t1) as [[[[b f] st] sz]| | |]; try discriminate. cbn [rbind] in *.
  destruct (substr (tk_src t1) st sz); try discriminate. cbn [rbind] in G. inversion G; subst.
  eexists. split; [reflexivity|]. split; [reflexivity|]. split; [exact E1|]. reflexivity.
Qed.
Print Assumptions C54_become_optional.

(** Not so for every text: a lone dash in parentheses becomes a closing parenthesis. *)
Theorem C54_lone_dash_refuted : exists o t',
  op_optdel o = true /\ op_fragok o = true /\
  get_text o (new_token (txt "(-)")) = Ok (txt ")", t').
Proof.
  exists {| op_optdel := true; op_fragok := true; op_case := true |}.
  eexists. split; [reflexivity|]. split; [reflexivity|]. vm_compute. reflexivity.
Qed.
Print Assumptions C54_lone_dash_refuted.

(** An empty text with the fragment option reads before the string. *)
Theorem C54_empty_text_refuted : exists o, get_text o (new_token []) = Undef.
Proof. exists {| op_optdel := false; op_fragok := true; op_case := true |}. vm_compute. reflexivity. Qed.
Print Assumptions C54_empty_text_refuted.

(** The fragment flag outlives the text it was computed from. *)
Theorem C54_stale_fragment_refuted : exists o t t1,
  op_fragok o = true /\ set_source_text o (new_token (txt "wor-")) (txt "wor-") = Ok t /\
  set_source_text o t (txt "whole") = Ok t1 /\ tk_frag t1 = BEGIN_FRAGMENT.
Proof.
  exists {| op_optdel := false; op_fragok := true; op_case := true |}.
  do 2 eexists. split; [reflexivity|]. split; [vm_compute; reflexivity|]. split; [vm_compute; reflexivity|]. reflexivity.
Qed.
Print Assumptions C54_stale_fragment_refuted.

(** ** Concrete cases *)
Example C10_case : txt "kitten" <> [] /\ txt "sitting" <> [] /\
  edit_distance (txt "kitten") (txt "sitting") = Ok 3.
Proof. split; [discriminate|]. split; [discriminate|]. vm_compute. reflexivity. Qed.

Example C11_case : let o := {| op_optdel := true; op_fragok := true; op_case := false |} in
  is_equivalent o (new_token (txt "(Frag-)")) o (new_token (txt "FRAGMENT")) = Ok true /\
  is_equivalent o (new_token (txt "-ment")) o (new_token (txt "fragment")) = Ok true /\
  is_equivalent o (new_token (txt "-frag")) o (new_token (txt "fragment")) = Ok false.
Proof. vm_compute. auto. Qed.

Example C12_case : overlap_with {| to_start := 3; to_end := 7 |} {| to_start := 7; to_end := 9 |} = true
  /\ overlap_with {| to_start := 8; to_end := 9 |} {| to_start := 3; to_end := 7 |} = false.
Proof. split; reflexivity. Qed.

Example C13_case : time_safe_divider {| to_start := 1200; to_end := 34000 |} = Ok 100%Z.
Proof. vm_compute. reflexivity. Qed.

Example C54_case : plain_word (txt "well-known") /\
  let o := {| op_optdel := true; op_fragok := true; op_case := true |} in
  get_text o (new_token (txt "(-well-known-)")) =
    Ok (txt "well-known", {| tk_src := txt "(-well-known-)"; tk_opt := true; tk_frag := BEGIN_FRAGMENT |}).
Proof.
  split; [|vm_compute; reflexivity].
  exists "w"%char, "n"%char, (txt "ell-known"). repeat split; try discriminate.
Qed.
