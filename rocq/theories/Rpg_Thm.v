(** The tables of the reports. *)
From Coq Require Import String Ascii List Arith ZArith NArith Bool Lia.
From Verif Require Import Base Rpg_Model Rpg_Spec Rpg_Proofs1 Rpg_Proofs2 Rpg_Proofs3 Rpg_Proofs4.
Import ListNotations.
Local Open Scope res_scope.
Local Open Scope nat_scope.

Definition txt (s : string) : list N := map N_of_ascii (list_ascii_of_string s).
(** rounding to the nearest, halves up *)
Definition nearest (u n k : nat) : nat := (2 * (u * k) + n) / (2 * n).
Lemma nearest_fair : fair nearest.
Proof.
  split.
  - intros u n k k' H. unfold nearest. destruct (Nat.eq_dec n 0) as [->|Hn]; [reflexivity|]. apply Nat.div_le_mono; [lia|]. nia.
  - intros u n H. unfold nearest. symmetry. apply Nat.div_unique with (r := n); [lia|]. lia.
Qed.
Definition only (cols : list (N * N)) (vals : list (list N)) : srow := {| s_cols := cols; s_vals := vals; s_before := []; s_after := [] |}.

(** ** The table *)
Theorem C107_table : forall spread pad page old rows lines, fair spread -> rows <> [] -> Forall good_row rows ->
  table spread pad page old (flat_map calls rows) = Ok lines ->
  exists w W lss,
    lines = map (on_page page w) (top w :: concat lss ++ [bottom w])
    /\ Forall (fun l => length l = w) (top w :: concat lss ++ [bottom w])
    /\ rows_shown W None rows lss
    /\ (forall r, In r rows -> Forall (fun tc => fst tc + 2 * pad <= snd tc) (W (s_cols r)))
    /\ (exists r, In r rows /\ Forall (fun tc => snd tc = fst tc + 2 * pad) (W (s_cols r)))
    /\ (Forall simple_row rows -> forall r, In r rows ->
          map fst (W (s_cols r)) = map (column_needs rows (length (s_cols r))) (seq 0 (length (s_cols r)))).
Proof.
  intros spread pad page old rows lines Hf Hr G H. unfold table in H.
  destruct (build_ok old rows 0 G) as [ms [B1 [B2 _]]]. rewrite B1 in H. cbn [rbind] in H. unfold report in H. cbv zeta in H.
  set (sz := all_sizes pad ms) in *. set (w := width pad sz ms) in *.
  destruct (rows_lines spread pad sz w None ms) as [ls| | |] eqn:El; try discriminate. cbn [rbind] in H. injection H as <-.
  assert (Ha : forall m, In m ms -> fit pad (num_col m) 0 (d_cols (r_def m)) (r_vals m) sz /\ just_width pad sz (r_def m) <= w).
  { intros m Hm. split; [apply all_sizes_fit; exact Hm|apply width_ge; exact Hm]. }
  destruct (rows_ok spread pad sz w ms Hf Ha rows ms None ls (fun m Hm => Hm) G B2 El) as [lss [L1 [L2 L3]]]. subst ls.
  assert (Hms : ms <> []) by (intros ->; inversion B2; subst; congruence).
  destruct (width_some pad sz ms Hms) as [m0 [M1 M2]]. fold w in M2.
  assert (K0 : exists r0, In r0 rows /\ kept r0 m0).
  { clear - B2 M1. induction B2 as [|r m rows ms K1 K2 IH]; [destruct M1|]. destruct M1 as [->|M1]; [exists r; split; [left; reflexivity|exact K1]|].
    destruct (IH M1) as [r0 [A B]]. exists r0. split; [right; exact A|exact B]. }
  destruct K0 as [r0 [R0 [Kd _]]].
  assert (W2 : 2 <= w).
  { rewrite M2, Kd. unfold just_width. cbn [def_of d_cols]. assert (s_cols r0 <> []) by (rewrite Forall_forall in G; exact (proj1 (G r0 R0))).
    destruct (s_cols r0); [congruence|]. cbn [length]. lia. }
  exists w, (W_of spread pad sz w), lss. split; [|split; [|split; [exact L2|split; [|split]]]].
  - assert (E : forall l, indent page w l = on_page page w l).
    { intros l. unfold indent, on_page, blanks, bl. destruct page as [pw|]; [|reflexivity]. destruct (Nat.ltb_spec w pw) as [Hlt|Hge]; [reflexivity|].
      replace (pw - w) with 0 by lia. reflexivity. }
    change (map (indent page w) (top w :: concat lss ++ [bottom w]) = map (on_page page w) (top w :: concat lss ++ [bottom w])). apply map_ext. exact E.
  - constructor; [unfold top; rewrite !app_length, repeat_length; cbn [length]; lia|]. apply Forall_app. split; [exact L3|].
    constructor; [|constructor]. unfold bottom. rewrite !app_length, repeat_length. cbn [length]. lia.
  - intros r _. apply cell_sizes_pad.
  - exists r0. split; [exact R0|]. unfold W_of, szs_of. rewrite Kd in M2. rewrite <- M2, Nat.sub_diag. apply cell_sizes_exact; [exact Hf| |lia].
    assert (s_cols r0 <> []) by (rewrite Forall_forall in G; exact (proj1 (G r0 R0))). destruct (s_cols r0); [congruence|]. cbn [length]. lia.
  - intros S r Hin. unfold W_of, szs_of. rewrite Forall_forall in S. rewrite cell_sizes_simple by exact (proj1 (S r Hin)). apply map_ext_in. intros c Hc. apply in_seq in Hc.
    apply all_sizes_simple; [exact G|apply Forall_forall; exact S|exact B2|lia].
Qed.
Print Assumptions C107_table.

(** ** Nothing goes wrong *)
Theorem C107_prints : forall spread pad page old rows B, fair spread -> Forall good_row rows ->
  B < 300 -> (forall r v, In r rows -> In v (s_vals r) -> length v <= B) -> (forall c r, length (old c r) <= B) ->
  (forall r, In r rows -> length (s_cols r) * (B + 2 * pad + 2) <= 598) ->
  exists lines, table spread pad page old (flat_map calls rows) = Ok lines.
Proof.
  intros spread pad page old rows B Hf G HB Hv Ho Hw. unfold table.
  destruct (build_ok old rows 0 G) as [ms [B1 [B2 B3]]]. rewrite B1. cbn [rbind]. unfold report. cbv zeta.
  assert (V : forall m, In m ms -> Forall (fun v => length v <= B) (r_vals m)).
  { intros m Hm. apply Forall_forall. intros v Hin. destruct (B3 m Hm v Hin) as [[r [R1 R2]]|[c [k ->]]]; [exact (Hv r v R1 R2)|apply Ho]. }
  set (sz := all_sizes pad ms). set (w := width pad sz ms).
  assert (W : w <= 600).
  { assert (D : ms = [] \/ ms <> []) by (destruct ms; [left; reflexivity|right; discriminate]).
    destruct D as [D|Hne]; [unfold w; rewrite D; cbn; lia|].
    destruct (width_some pad sz ms Hne) as [m0 [M1 M2]]. unfold w. rewrite M2.
    assert (K0 : exists r0, In r0 rows /\ kept r0 m0).
    { clear - B2 M1. induction B2 as [|r m rows ms K1 K2 IH]; [destruct M1|]. destruct M1 as [->|M1]; [exists r; split; [left; reflexivity|exact K1]|].
      destruct (IH M1) as [r0 [A Hb]]. exists r0. split; [right; exact A|exact Hb]. }
    destruct K0 as [r0 [R0 [Kd _]]]. rewrite Kd. unfold just_width. cbn [def_of d_cols d_chars].
    pose proof (total_le pad (length (s_cols r0)) B sz (length (s_cols r0)) 0 (all_sizes_le pad B ms V)) as T.
    specialize (Hw r0 R0). assert (E : eqs (s_cols r0) <= length (s_cols r0)) by apply eqs_le. unfold col in *. nia. }
  destruct (rows_some spread pad sz w ms Hf W) with (rows := rows) (ms := ms) (prev := @None (list col)) as [ls Hl]; [|auto|exact G|exact B2|].
  - intros m Hm. split; [apply all_sizes_fit; exact Hm|]. split; [apply width_ge; exact Hm|]. eapply Forall_impl; [|exact (V m Hm)]. cbn beta. intros. lia.
  - rewrite Hl. cbn [rbind]. eauto.
Qed.
Print Assumptions C107_prints.

(** ** What does not hold *)
(** the widths depend on tables printed before: the last column of a cell of several columns is measured with the
    text it had there *)
Definition spanning : list srow :=
  [only [(108, 32); (97, 32)]%N [txt "A"]; only [(108, 32); (108, 32)]%N [txt "B"; txt "C"]].
Theorem C107_earlier_table_refuted : exists rows old old', Forall good_row rows
  /\ table nearest 0 None old (flat_map calls rows) <> table nearest 0 None old' (flat_map calls rows).
Proof.
  exists spanning, (fun _ _ => []), (fun _ _ => txt "an earlier text"). split.
  - do 2 (apply Forall_cons; [repeat split; try discriminate; try (cbn; lia); try (repeat (apply Forall_cons || apply Forall_nil); cbn; auto 10; lia); try (intros; congruence)|]). constructor.
  - vm_compute. discriminate.
Qed.
(** a letter that is not known is never passed *)
Theorem C107_unknown_letter_refuted : forall fuel, parse fuel (txt "xl") [] 0 0 = NoFuel.
Proof.
  assert (H : forall fuel acc, parse fuel (txt "xl") acc 0 0 = NoFuel).
  { induction fuel as [|fuel IH]; intros acc; [reflexivity|]. apply (IH (acc ++ [(0, 32)%N])). }
  intros fuel. apply H.
Qed.
(** a separation below a row with a double bar is too short *)
Definition ragged (t : res (list (list N))) : Prop := exists ls, t = Ok ls /\ exists a b, In a ls /\ In b ls /\ length a <> length b.
Theorem C107_double_bar_below_refuted :
  ragged (table nearest 0 None (fun _ _ => []) [Separation 45 false; Row (txt "l=l") [txt "a"; txt "b"]]).
Proof. eexists. split; [vm_compute; reflexivity|]. eexists. eexists. split; [left; reflexivity|]. split; [right; right; left; reflexivity|]. discriminate. Qed.
(** a double bar within a cell or at the end makes the row too short *)
Theorem C107_double_bar_within_refuted :
  ragged (table nearest 0 None (fun _ _ => []) [Row (txt "l=al") [txt "a"; txt "b"]])
  /\ ragged (table nearest 0 None (fun _ _ => []) [Row (txt "ll=") [txt "a"; txt "b"]]).
Proof.
  split; (eexists; split; [vm_compute; reflexivity|]; eexists; eexists; split; [left; reflexivity|]; split; [right; left; reflexivity|]; discriminate).
Qed.
(** a column n is taken and shows an error *)
Theorem C107_letter_n_refuted :
  table nearest 0 None (fun _ _ => []) [Row (txt "n") [txt "a"]]
  = Ok [txt ",-."; txt "|undefined inter column space" ++ [10%N] ++ txt "|"; txt "`-'"].
Proof. vm_compute. reflexivity. Qed.
(** a blank after // is not counted, and there is a line too many *)
Theorem C107_blank_break_refuted :
  exists ls, table nearest 0 None (fun _ _ => []) (calls (only [(108, 32)]%N [txt "ab// cd"])) = Ok ls
    /\ length ls = 5 /\ length (parts (txt "ab// cd")) = 2.
Proof. eexists. split; [vm_compute; reflexivity|]. split; reflexivity. Qed.

(** ** Examples *)
(** A table with a heading over two columns, broken texts and separations *)
Definition sample : list srow :=
  [ {| s_cols := [(99, 32); (97, 32); (97, 32)]%N; s_vals := [txt "A title over all"]; s_before := []; s_after := [] |};
    {| s_cols := [(76, 124); (114, 61); (99, 32)]%N; s_vals := [txt "some words here"; txt "12//3"; txt "x"]; s_before := txt "-"; s_after := [] |};
    {| s_cols := [(76, 124); (114, 61); (99, 32)]%N; s_vals := [txt "more"; txt "4"; []]; s_before := txt "- ="; s_after := [] |};
    {| s_cols := [(108, 124); (97, 32); (114, 32)]%N; s_vals := [txt "Sum"; txt "7"]; s_before := txt "-"; s_after := txt " -" |} ].
(** rows of single columns, for which the widths are what the texts need *)
Definition plain_rows : list srow := [only [(76, 124); (114, 32)]%N [txt "two words"; txt "12//345"]; only [(99, 32); (114, 32)]%N [txt "name"; []]].

(** ** Concrete cases *)
Example sample_good : Forall good_row sample.
Proof.
  do 4 (apply Forall_cons; [unfold good_row; cbn [s_cols s_vals s_before s_after];
    split; [discriminate|]; split; [discriminate|]; split; [repeat (apply Forall_cons; [split; cbn; tauto|]); constructor|];
    split; [cbn; repeat split; intros; congruence|]; split; [cbn; lia|]; split; [reflexivity|];
    split; [repeat (apply Forall_cons; [cbn; lia|]); constructor|];
    intros H; try congruence; repeat (apply Forall_cons; [cbn; congruence|]); constructor|]).
  constructor.
Qed.

Example sample_printed : table nearest 1 (Some 40) (fun _ _ => []) (flat_map calls sample) = Ok (map (on_page (Some 40) 21) (map txt [
  ",-------------------."%string;
  "| A title over all  |"%string;
  "|-------------------|"%string;
  "| some   | 12 || x  |"%string;
  "| words  |  3 ||    |"%string;
  "| here   |    ||    |"%string;
  "|--------+----++----|"%string;
  "|        |    ||    |"%string;
  "|===================|"%string;
  "| more   |  4 ||    |"%string;
  "|-------------------|"%string;
  "| Sum             7 |"%string;
  "|                   |"%string;
  "|-------------------|"%string;
  "`-------------------'"%string])).
Proof. vm_compute. reflexivity. Qed.

Example sample_prints : exists lines, table nearest 1 None (fun _ _ => []) (flat_map calls sample) = Ok lines.
Proof.
  apply (C107_prints nearest 1 None _ sample 20); [exact nearest_fair|exact sample_good|lia| |cbn; lia|].
  - intros r v H. repeat (destruct H as [<-|H]; [cbn [s_vals]; intros Hv; repeat (destruct Hv as [<-|Hv]; [cbn; lia|]); destruct Hv|]). destruct H.
  - intros r H. repeat (destruct H as [<-|H]; [cbn; lia|]). destruct H.
Qed.

Example plain_good : Forall good_row plain_rows /\ Forall simple_row plain_rows.
Proof.
  split.
  - do 2 (apply Forall_cons; [unfold good_row; cbn [s_cols s_vals s_before s_after only];
      split; [discriminate|]; split; [discriminate|]; split; [repeat (apply Forall_cons; [split; cbn; tauto|]); constructor|];
      split; [cbn; repeat split; intros; congruence|]; split; [cbn; lia|]; split; [reflexivity|];
      split; [repeat (apply Forall_cons; [cbn; lia|]); constructor|]; intros H; congruence|]).
    constructor.
  - do 2 (apply Forall_cons; [split; [repeat (apply Forall_cons; [cbn; discriminate|]); constructor|];
      repeat (apply Forall_cons; [cbn; repeat split; discriminate|]); constructor|]).
    constructor.
Qed.

Example plain_needs : map (column_needs plain_rows 2) [0; 1] = [5; 3].
Proof. reflexivity. Qed.
