(** The unified report of the significance tests and the matrix of the McNemar test. *)
From Coq Require Import String List ZArith NArith Arith Bool QArith Lia.
From Verif Require Import Base Store_Model Rpg_Model Rpg_Spec Rpg_Thm Sig_Model Sig_Spec Sig_Proofs1 Sig_Proofs2 Sig_Proofs3 Uni_Model Uni_Spec Uni_Proofs1 Uni_Proofs2 Uni_Proofs3.
Import ListNotations.
Local Open Scope res_scope.
Local Open Scope nat_scope.

(** ** The unified report *)
(** C113: the report is a table of equally long lines that shows, for every pair of systems and every test, the better
    system or ~, the probability to the nearest thousandth and its stars; the legend has every test. *)
Theorem C113_unified : forall spread old testname names tests lines, fair spread -> tests <> [] -> length testname < 1900 ->
  unified spread old testname names tests = Ok lines ->
  exists p h g ls w W lss, faithful p
    /\ words h = [bytes "Test"; bytes "Name"; bytes "Abbrev."]
    /\ (exists a b, g = repeat 45%N a ++ repeat 32%N 5 ++ repeat 45%N b)
    /\ Forall2 (fun t l => words l = words (t_desc t) ++ words (t_id t)) tests ls
    /\ Forall (fun l => length l = length h) (g :: ls)
    /\ lines = map (on_page (Some 80) w) (top w :: concat lss ++ [bottom w])
    /\ Forall (fun l => length l = w) (top w :: concat lss ++ [bottom w])
    /\ rows_shown W None (unified_rows p testname names tests h g ls remarks) lss.
Proof.
  intros spread old testname names tests lines Hf Ht Hn H. unfold unified in H. next H.
  destruct (unified_rows_ok _ _ _ _ Ht Hn E) as (h & g & ls & H1 & H2 & H3 & H4 & H5 & H6 & _). subst a.
  apply C107_table in H; [|exact Hf|discriminate|exact H2]. destruct H as (w & W & lss & L1 & L2 & L3 & _).
  exists printed, h, g, ls, w, W, lss. split; [apply printed_faithful|]. split; [exact H3|]. split; [exact H4|]. split.
  { clear - H6. induction H6 as [|t l tests ls A B IH]; constructor; [apply A|exact IH]. }
  split; [|split; [exact L1|split; [exact L2|exact L3]]].
  constructor; [exact H5|]. clear - H6. induction H6 as [|t l tests ls A B IH]; constructor; [apply A|exact IH].
Qed.
Print Assumptions C113_unified.

Lemma legend_line_fits : forall d s x y, (d + 5 + s < 100)%Z -> (0 <= s)%Z -> (slen x <= d)%Z -> (slen y <= s)%Z -> exists l, legend_line d s x y = Ok l.
Proof.
  intros d s x y B S0 X Y. unfold legend_line. assert (0 <= slen x)%Z by (unfold slen; lia).
  destruct (centre_ok x d) as [a A]; [lia|lia|]. destruct (centre_ok y s) as [b B']; [lia|lia|]. rewrite A, B'. cbn [rbind].
  change (centre [] 5) with (Ok (blanks 5)). cbn [rbind]. pose proof (centre_fits _ _ _ A X) as A1. pose proof (centre_fits _ _ _ B' Y) as B1. unfold slen in *.
  destruct (Nat.leb_spec 100 (length (a ++ blanks 5 ++ b))) as [K|K]; [|eexists; reflexivity].
  rewrite !app_length in K. change (length (blanks 5)) with 5 in K. lia.
Qed.
(** C113: for 16 systems the program stops, for 24 the formats overflow. *)
Theorem C113_sixteen_refuted : forall spread old testname names tests,
  (forall t, In t tests -> length (t_desc t) <= 60 /\ length (t_id t) <= 30) ->
  (16 <= length names < 24 -> unified spread old testname names tests = Exit)
  /\ (24 <= length names -> unified spread old testname names tests = Undef).
Proof.
  intros spread old testname names tests HT. unfold unified, unified_ops. cbv zeta. rewrite title_length. split; intros HN.
  - destruct (Nat.leb_spec 100 (5 + 4 * length names)) as [K|K]; [unfold str, Rpg_Model.str in *; lia|].
    set (d := Sig_Model.longest 9 (map t_desc tests)). set (s := Sig_Model.longest 7 (map t_id tests)).
    assert (D : (9 <= d <= 60)%Z).
    { split; [apply (proj1 (longest_fold _ 9))|]. apply longest_bound; [lia|]. intros x Hx. apply in_map_iff in Hx. destruct Hx as (t & <- & Ht). unfold slen. specialize (HT t Ht). lia. }
    assert (S : (7 <= s <= 30)%Z).
    { split; [apply (proj1 (longest_fold _ 7))|]. apply longest_bound; [lia|]. intros x Hx. apply in_map_iff in Hx. destruct Hx as (t & <- & Ht). unfold slen. specialize (HT t Ht). lia. }
    destruct (legend_line_fits d s (bytes "Test Name") (bytes "Abbrev.")) as [h ->]; [lia|lia|change (slen (bytes "Test Name")) with 9%Z; lia|change (slen (bytes "Abbrev.")) with 7%Z; lia|]. cbn [rbind].
    assert (G : exists g, legend_dashes d s = Ok g).
    { unfold legend_dashes. change (centre [] 5) with (Ok (blanks 5)). cbn [rbind]. destruct (Nat.leb_spec 100 (length (dashes d ++ blanks 5 ++ dashes s))) as [L|L]; [|eexists; reflexivity].
      unfold dashes in L. rewrite !app_length, !repeat_length in L. change (length (blanks 5)) with 5 in L. lia. }
    destruct G as [g ->]. cbn [rbind]. unfold Uni_Model.legend_rows.
    match goal with |- context [@each ?A ?B ?f (indexed tests)] => assert (E : exists lr, @each A B f (indexed tests) = Ok lr) end.
    { apply each_ok. intros [i t] Hi. cbn [fst snd]. apply in_combine_r in Hi.
      destruct (legend_line_fits d s (t_desc t) (t_id t)) as [l ->]; [lia|lia| | |eexists; reflexivity].
      - apply (proj2 (longest_fold _ 9)), in_map, Hi.
      - apply (proj2 (longest_fold _ 7)), in_map, Hi. }
    destruct E as [lr ->]. cbn [rbind]. unfold iterated. replace (room (3 * length names + 3)) with 75; [reflexivity|].
    unfold room. destruct (Nat.leb_spec (3 * length names + 3) 50); [unfold str, Rpg_Model.str in *; lia|reflexivity].
  - destruct (Nat.leb_spec 100 (5 + 4 * length names)) as [K|K]; [reflexivity|unfold str, Rpg_Model.str in *; lia].
Qed.
Print Assumptions C113_sixteen_refuted.

(** C113: a test that gives no probabilities and leaves 0 (the analysis of variance by ranks, anovar.c:63-67) is printed as
    if it had found a difference at 0.001 even where it has found none. *)
Theorem C113_no_probability_refuted : forall p names k s t, faithful p -> s < t -> t_win k s t = 0%Z -> t_conf k s t = 0%Q ->
  about p names k s t = [bytes "~"; bytes "<0.001"; bytes "***"].
Proof.
  intros p names k s t (l1 & l2 & l3 & C1 & _ & _ & F) L W Z. unfold about. apply Nat.ltb_lt in L. rewrite L, W, Z.
  assert (P : (0 < l1)%Q) by (eapply Qlt_le_trans; [|apply C1]; reflexivity).
  destruct (F 0%Q) as (F1 & _ & F3 & _). rewrite (F1 P), (F3 (Qlt_le_weak _ _ P)). reflexivity.
Qed.
Print Assumptions C113_no_probability_refuted.

(** ** The matrix of the McNemar test *)
Theorem C113_mcnemar : forall spread old matrix_name tname names win conf lines, fair spread -> (forall i j, In (win i j) [-1; 0; 1]%Z) ->
  length matrix_name < 2000 -> length tname < 2000 -> mcn_matrix spread old matrix_name tname names win conf = Ok lines ->
  exists p w W lss, floored p
    /\ lines = map (on_page (Some 80) w) (top w :: concat lss ++ [bottom w])
    /\ Forall (fun l => length l = w) (top w :: concat lss ++ [bottom w])
    /\ rows_shown W None (mcn_shows p matrix_name tname names win conf) lss.
Proof.
  intros spread old mn tn names win conf lines Hf Hw M T H. unfold mcn_matrix in H. next H.
  destruct (mcn_rows_ok _ _ _ _ _ _ Hw M T E) as (-> & G & _). apply C107_table in H; [|exact Hf|discriminate|exact G].
  destruct H as (w & W & lss & L1 & L2 & L3 & _). exists mcn_printed, w, W, lss. split; [apply mcn_floored|]. split; [exact L1|]. split; [exact L2|exact L3].
Qed.
Print Assumptions C113_mcnemar.

Ltac zl := unfold str, Rpg_Model.str, Store_Model.str in *; lia.
Lemma f3_short : forall q, (0 <= q)%Q -> (q <= 1)%Q -> length (f3 q) <= 5.
Proof.
  intros q Q0 Q1. unfold f3. destruct (thousandths_near q) as [A B]. set (k := thousandths q) in *. clearbody k.
  assert (K : (0 <= k <= 1000)%Z).
  { destruct q as [n d]. unfold Qle, Qminus, Qplus, Qopp, Qmult, inject_Z in *. cbn [Qnum Qden] in *. rewrite ?Pos2Z.inj_mul in *. split; nia. }
  assert (G : forallb (fun i => length (Sgml_Model.fixed 3 (Z.of_nat i)) <=? 5) (seq 0 1001) = true) by (vm_compute; reflexivity).
  rewrite forallb_forall in G. specialize (G (Z.to_nat k)). rewrite Z2Nat.id in G by lia. apply Nat.leb_le, G. apply in_seq. lia.
Qed.
(** C113: it is printed if the names and titles fit the lines. *)
Theorem C113_mcnemar_printed : forall spread old matrix_name tname names win conf B, fair spread -> (forall i j, In (win i j) [-1; 0; 1]%Z) ->
  (forall i j, 0 <= conf i j /\ conf i j <= 1)%Q -> 12 <= B < 300 -> length names < 25 -> (length names + 1) * (B + 4) <= 598 ->
  length matrix_name <= B -> length tname <= B -> (forall x, In x names -> length x <= B) -> (forall c r, length (old c r) <= B) ->
  exists lines, mcn_matrix spread old matrix_name tname names win conf = Ok lines.
Proof.
  intros spread old mn tn names win conf B Hf Hw Hc HB L HS M T HX HO. unfold mcn_matrix.
  assert (V1 : forall s v, s < length names -> In v (mcn_conf names conf (s, nth s names [])) -> length v <= B).
  { intros s v Hs Hv. rewrite conf_values in Hv. destruct Hv as [<-|Hv]; [apply HX, nth_In; exact Hs|]. apply in_map_iff in Hv. destruct Hv as (t & <- & _).
    unfold mcn_about. destruct (s <? t); [|cbn; zl]. rewrite !app_length. change (length (bytes "Conf=(")) with 6. change (length (bytes ")")) with 1.
    cbn [number mcn_printed]. assert (X : length (f3 (if qlt (conf s t) p001 then p001 else conf s t)) <= 5); [|zl].
    destruct (qlt (conf s t) p001); [apply f3_short; vm_compute; discriminate|apply f3_short; apply Hc]. }
  assert (V2 : forall s v, s < length names -> In v (mcn_better names win (s, nth s names [])) -> length v <= B).
  { intros s v Hs Hv. rewrite better_values in Hv by exact Hw. destruct Hv as [<-|Hv]; [cbn; zl|]. apply in_map_iff in Hv. destruct Hv as (t & <- & Ht). apply in_seq in Ht.
    unfold mcn_who, better. destruct (s <? t); [|cbn; zl]. destruct (win s t); [cbn; zl|apply HX, nth_In; zl|apply HX, nth_In; zl]. }
  assert (RM : room (length names + 1) = 50) by (unfold room; destruct (Nat.leb_spec (length names + 1) 50); [reflexivity|zl]).
  assert (IT : forall fmt vals, length vals = length names + 1 -> (forall v, In v vals -> length v <= B) -> iterated (room (length names + 1)) fmt vals = Ok (Row fmt vals)).
  { intros fmt vals LV HV. unfold iterated. rewrite RM. change (60 <? 50) with false. cbv iota. match goal with |- (if 60 <? ?x then _ else _) = _ => replace (60 <? x) with false by (symmetry; apply Nat.ltb_ge; zl) end.
    match goal with |- (if ?b then _ else _) = _ => destruct b eqn:E end; [|reflexivity]. apply existsb_exists in E. destruct E as (v & Hv & K). apply Nat.leb_le in K. specialize (HV v Hv). zl. }
  assert (OK : exists ops, mcn_ops mn tn names win conf = Ok ops).
  { unfold mcn_ops. cbv zeta. rewrite mcn_length. match goal with |- context [50 <=? ?x] => replace (50 <=? x) with false by (symmetry; apply Nat.leb_gt; zl) end.
    rewrite IT; [|cbn [length]; zl|intros v [<-|Hv]; [cbn; zl|apply HX; exact Hv]]. cbn [rbind].
    match goal with |- context [@each ?A ?B0 ?f (numbered names)] => assert (E : exists lr, @each A B0 f (numbered names) = Ok lr) end.
    { apply each_ok. intros [s a] Hs. apply numbered_in in Hs. destruct Hs as (Hs & -> & _). unfold mcn_rows.
      rewrite IT; [|unfold mcn_conf; cbn [length]; rewrite map_length, Sig_Proofs3.numbered_length; zl|intros v; apply V1; exact Hs]. cbn [rbind].
      rewrite IT; [|unfold mcn_better; cbn [length]; rewrite map_length, Sig_Proofs3.numbered_length; zl|intros v; apply V2; exact Hs]. eexists. reflexivity. }
    destruct E as [lr ->]. eexists. reflexivity. }
  destruct OK as [ops OK]. rewrite OK. cbn [rbind]. destruct (mcn_rows_ok mn tn names win conf ops Hw ltac:(zl) ltac:(zl) OK) as (-> & G & _).
  apply (C107_prints spread 1 (Some 80) old _ B Hf G ltac:(zl)); [|exact HO|].
  - intros r v Hr Hv. unfold mcn_shows in Hr. apply in_app_iff in Hr. destruct Hr as [[<-|[<-|[<-|[]]]]|Hr].
    + destruct Hv as [<-|[]]. exact M.
    + destruct Hv as [<-|[]]. exact T.
    + destruct Hv as [<-|Hv]; [cbn; zl|apply HX; exact Hv].
    + apply in_flat_map in Hr. destruct Hr as (s & Hs & Hr). apply in_seq in Hs. destruct Hr as [<-|[<-|[]]].
      * apply (V1 s); [zl|]. rewrite conf_values. exact Hv.
      * apply (V2 s); [zl|]. rewrite better_values by exact Hw. exact Hv.
  - assert (LO : forall n, length (ones n) = n + 1) by (induction n as [|n IH]; [reflexivity|cbn [ones length]; rewrite IH; zl]).
    intros r Hr. unfold mcn_shows in Hr. apply in_app_iff in Hr. destruct Hr as [[<-|[<-|[<-|[]]]]|Hr].
    + cbn [s_cols mkrow length]. zl.
    + cbn [s_cols over mkrow length]. zl.
    + cbn [s_cols mkrow]. rewrite LO. zl.
    + apply in_flat_map in Hr. destruct Hr as (s & Hs & Hr). destruct Hr as [<-|[<-|[]]]; cbn [s_cols mkrow under]; rewrite LO; zl.
Qed.
Print Assumptions C113_mcnemar_printed.

(** With 25 systems the format overflows. *)
Theorem C113_twentyfive_refuted : forall spread old matrix_name tname names win conf, 25 <= length names ->
  mcn_matrix spread old matrix_name tname names win conf = Undef.
Proof.
  intros. unfold mcn_matrix, mcn_ops. cbv zeta. rewrite mcn_length. destruct (Nat.leb_spec 50 (1 + 2 * length names)) as [K|K]; [reflexivity|unfold str, Rpg_Model.str in *; lia].
Qed.
Print Assumptions C113_twentyfive_refuted.

(** ** Examples *)
Definition three : list str := map bytes ["alpha"; "beta"; "gamma"]%string.
Definition mp : test := {| t_id := bytes "MP"; t_desc := bytes "Matched Pair Sentence Segment (Word Error)";
  t_win := fun i j => if (i =? 0) && (j =? 1) then (-1)%Z else if (i =? 0) && (j =? 2) then 1%Z else 0%Z;
  t_conf := fun i j => if (i =? 0) && (j =? 1) then (3 # 1000)%Q else if (i =? 0) && (j =? 2) then (1 # 5000)%Q else (7 # 16)%Q |}.
Definition mn : test := {| t_id := bytes "MN"; t_desc := bytes "McNemar (Sentence Error)"; t_win := fun _ _ => 0%Z; t_conf := fun _ _ => (33 # 256)%Q |}.
Definition lines_of (r : res (list str)) : list str := match r with Ok ls => ls | _ => [] end.
Example three_unified : firstn 12 (skipn 10 (lines_of (unified nearest (fun _ _ => []) (bytes "Demo") three [mp; mn]))) = map bytes [
  "|----------------------------------------------------------------------------------|";
  "|  Test   ||       | alpha  |        beta        |        gamma         ||  Test   |";
  "| Abbrev. ||       |        |                    |                      || Abbrev. |";
  "|---------++-------+--------+--------------------+----------------------++---------|";
  "|   MP    || alpha |        | alpha   0.003   ** | gamma   <0.001   *** ||   MP    |";
  "|   MN    ||       |        |     ~   0.129      |     ~    0.129       ||   MN    |";
  "|---------++-------+--------+--------------------+----------------------++---------|";
  "|   MP    || beta  |        |                    |     ~    0.438       ||   MP    |";
  "|   MN    ||       |        |                    |     ~    0.129       ||   MN    |";
  "|---------++-------+--------+--------------------+----------------------++---------|";
  "|   MP    || gamma |        |                    |                      ||   MP    |";
  "|   MN    ||       |        |                    |                      ||   MN    |"]%string.
Proof. vm_compute. reflexivity. Qed.
Example three_unified_ok : exists lines, unified nearest (fun _ _ => []) (bytes "Demo") three [mp; mn] = Ok lines /\ length lines = 43.
Proof. eexists. split; [vm_compute; reflexivity|reflexivity]. Qed.
Example three_mcnemar : mcn_matrix nearest (fun _ _ => []) (bytes "Results") (bytes "Demo") three (t_win mp) (t_conf mp) = Ok (map bytes [
  "                ,---------------------------------------------.";
  "                |                   Results                   |";
  "                |                    Demo                     |";
  "                |                                             |";
  "                |---------------------------------------------|";
  "                |       | alpha |     beta     |    gamma     |";
  "                |-------+-------+--------------+--------------|";
  "                | alpha |       | Conf=(0.003) | Conf=(0.001) |";
  "                |       |       |    alpha     |    gamma     |";
  "                |-------+-------+--------------+--------------|";
  "                | beta  |       |              | Conf=(0.438) |";
  "                |       |       |              |     same     |";
  "                |-------+-------+--------------+--------------|";
  "                | gamma |       |              |              |";
  "                |       |       |              |              |";
  "                `---------------------------------------------'"]%string).
Proof. vm_compute. reflexivity. Qed.
Example three_values : (forall i j, In (t_win mp i j) [-1; 0; 1]%Z) /\ (forall i j, 0 <= t_conf mp i j /\ t_conf mp i j <= 1)%Q.
Proof.
  split; intros i j; cbn [mp t_win t_conf]; destruct ((i =? 0) && (j =? 1)); [cbn; auto| |split; discriminate|];
    destruct ((i =? 0) && (j =? 2)); try (cbn; auto; fail); split; discriminate.
Qed.
