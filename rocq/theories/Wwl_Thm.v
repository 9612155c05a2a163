(** C108: the weights of words. *)
From Coq Require Import String List NArith ZArith Arith Bool Lia Permutation Sorted.
From Verif Require Import Base Text_Model Text_Spec Text_Proofs1 Word_Model Word_Proofs Order_Model Store_Model Alex_Model AsStm_Model Wwl_Model Wwl_Spec Wwl_Proofs1 Wwl_Proofs2 Wwl_Proofs3.
From Verif Require AsStm_Spec AsStm_Proofs1.
Import ListNotations.
Local Open Scope res_scope.
Local Open Scope nat_scope.

(** ** The file *)
(** A file whose lines all say something is loaded: its columns are those it names or else as many as
    every word has weights for, called after the file. *)
Theorem C108_loaded : forall num e go sort name file ls is,
  name <> [] -> well_formed e name -> name <> bytes "unity" ->
  lines_of file ls -> Forall2 line_says ls is -> Forall (fits e) ls -> length (names_of is) <= 10 ->
  exists t, load_WWL num e go sort name (Some file) = Ok (Some t)
    /\ (names_of is <> [] -> l_desc t = names_of is)
    /\ (names_of is = [] -> length (l_desc t) = least (words_of is)
        /\ forall k, k < least (words_of is) -> nth_error (l_desc t) k = Some (name ++ bytes " Col " ++ Sgml_Model.nat_text (N.of_nat (k + 1)))).
Proof.
  intros num e go sort name file ls is NE WF NU LO F2 FT B. eexists. split; [eapply load_ok; eauto using says_pos|]. cbn [l_desc]. split.
  - intros H. destruct (names_of is); [congruence|reflexivity].
  - intros ->. rewrite map_length, seq_length. split; [reflexivity|]. intros k L. rewrite nth_error_map, (nth_error_nth' _ 0) by (rewrite seq_length; exact L).
    rewrite seq_nth by exact L. reflexivity.
Qed.
Print Assumptions C108_loaded.

(** A word weighs what the file lists it with in the column, or else the default weight; a compound word
    weighs what its parts weigh together. *)
Theorem C108_weight : forall num e go sort name file ls is k w t,
  name <> [] -> well_formed e name -> name <> bytes "unity" ->
  lines_of file ls -> Forall2 line_says ls is -> Forall (fits e) ls -> length (names_of is) <= 10 -> sorts e sort ->
  Forall (fun p => well_formed e (fst p) /\ k < length (snd p)) (words_of is) ->
  load_WWL num e go sort name (Some file) = Ok (Some t) ->
  (~ In 61%N w -> well_formed e w -> exists z, weight e t k w = Ok z /\ listed num is k w z)
  /\ (forall ps, In 61%N w -> length w < 100 -> parts w ps -> Forall (well_formed e) ps ->
      exists zs, weight e t k w = Ok (total zs) /\ Forall2 (listed num is k) ps zs).
Proof.
  intros num e go sort name file ls is k w t NE WF NU LO F2 FT B SO F L.
  rewrite (load_ok num e go sort name file ls is) in L by eauto using says_pos. injection L as <-. split.
  - intros NI W. unfold weight. rewrite existsb_not by exact NI. apply made_listed; assumption.
  - intros ps I L P WP. unfold weight. rewrite (proj2 (existsb_in 61%N w) I). destruct (Nat.ltb_spec (length w) 100); [|unfold str in *; lia].
    rewrite (parts_pieces _ _ P).
    match goal with |- exists zs, sum_parts _ ?l _ _ _ = _ /\ _ => destruct (sum_ok e l k (listed num is k) ps) with (acc := 0%Z) as (zs & E & G) end.
    + intros p IP. apply made_listed; [assumption..|]. rewrite Forall_forall in WP. auto.
    + exists zs. split; [exact E|exact G].
Qed.
Print Assumptions C108_weight.

(** Every word has parts. *)
Theorem C108_parts : forall w, exists ps, parts w ps /\ Forall (fun p => p <> [] /\ ~ In 61%N p) ps.
Proof.
  assert (G : forall n w, length w <= n -> exists ps, parts w ps /\ Forall (fun p => p <> [] /\ ~ In 61%N p) ps).
  { induction n as [|n IH]; intros w L.
    - destruct w; [|cbn in L; lia]. exists []. split; [constructor|]; constructor.
    - assert (S1 : forall w : str, exists s r, w = s ++ r /\ Forall (fun c => c = 61%N) s /\ hd 0%N r <> 61%N).
      { induction w0 as [|c w0 (s & r & E & F & H)]; [exists [], []; repeat split; [constructor|discriminate]|].
        destruct (N.eqb_spec c 61) as [->|NC]; [exists (61%N :: s), r; rewrite E; repeat split; [constructor; auto|exact H]|].
        exists [], (c :: w0). repeat split; [constructor|exact NC]. }
      assert (S2 : forall w : str, exists p r, w = p ++ r /\ ~ In 61%N p /\ (r = [] \/ exists t, r = 61%N :: t)).
      { induction w0 as [|c w0 (p & r & E & F & H)]; [exists [], []; repeat split; [intros []|left; reflexivity]|].
        destruct (N.eqb_spec c 61) as [->|NC]; [exists [], (61%N :: w0); repeat split; [intros []|right; eauto]|].
        exists (c :: p), r. rewrite E. repeat split; [intros [K|K]; congruence|exact H]. }
      destruct (S1 w) as (s & r & -> & FS & H). destruct (S2 r) as (p & r' & -> & NI & T). destruct p as [|c p].
      + destruct T as [->|(t & ->)]; [|cbn in H; congruence]. exists []. cbn [app]. rewrite app_nil_r. split; [constructor; exact FS|constructor].
      + destruct (IH r') as (ps & P & F); [rewrite !app_length in L; cbn [length] in L; lia|].
        exists ((c :: p) :: ps). split; [apply pt_part; [assumption|discriminate|assumption..]|]. constructor; [split; [discriminate|exact NI]|exact F]. }
  intros w. apply (G (length w)). lia.
Qed.
Print Assumptions C108_parts.

(** A line with a word and no weight makes the loading fail. *)
Theorem C108_no_weight : forall num e go sort name file ls1 is l ls2 w,
  name <> [] -> well_formed e name -> name <> bytes "unity" ->
  lines_of file (ls1 ++ l :: ls2) -> Forall2 line_says ls1 is -> Forall (fits e) (ls1 ++ [l]) -> length (names_of is) <= 10 ->
  ~ comment l -> AsStm_Spec.spaced l [w] -> load_WWL num e go sort name (Some file) = Ok None.
Proof.
  intros num e go sort name file ls1 is l ls2 w NE WF NU LO F2 FT B NC SP.
  assert (G : forall fuel file is s es m d x, lines_of file (ls1 ++ l :: ls2) -> Forall2 line_says ls1 is -> Forall (fits e) (ls1 ++ [l]) -> has s es (S m) d x ->
    length d + length (names_of is) <= MAX_W -> length file < fuel -> lines num e go fuel file s = Ok None).
  { clear F2 FT LO B file is. induction ls1 as [|l1 ls1 IH]; intros fuel file is s es m d x LO F2 FT H B LF; (destruct fuel as [|f]; [lia|]).
    - cbn [app] in *. inversion LO as [|f0 l0 r ls0 NEF FL LO']; subst. destruct FL as (E & K). apply Forall_inv in FT.
      assert (LE : length l <= N.to_nat 999) by (destruct FT as (_ & [|(-> & _)]); lia).
      cbn [lines]. destruct file as [|c0 file0] eqn:EF; [congruence|]. rewrite <- EF in *. clear EF.
      assert (TL : take_line (N.to_nat 999) file = (l, r)) by (rewrite E; apply take_whole; assumption).
      unfold str in *. rewrite TL. pose proof FT as (WL & _). rewrite string_in_id by (eapply well_formed_no_nul; exact WL). rewrite (whole_fits e l) by exact FT. cbn [orb].
      unfold line. destruct (is_comment l) eqn:EC; [apply is_comment_iff in EC; contradiction|]. rewrite is_empty_ok by exact WL. cbn [rbind].
      erewrite spaced_word_not_blank by eassumption. unfold data. rewrite (AsStm_Proofs1.pieces_spaced _ _ SP). reflexivity.
    - cbn [app] in *. inversion LO as [|f0 l0 r ls0 NEF FL LO']; subst. inversion F2 as [|l' i ls' is' LS F2']; subst.
      apply Forall_cons_iff in FT. destruct FT as (FT & FT'). destruct FL as (E & K).
      assert (LE : length l1 <= N.to_nat 999) by (destruct FT as (_ & [|(-> & _)]); lia).
      cbn [lines]. destruct file as [|c0 file0] eqn:EF; [congruence|]. rewrite <- EF in *. clear EF.
      assert (TL : take_line (N.to_nat 999) file = (l1, r)) by (rewrite E; apply take_whole; assumption).
      unfold str in *. rewrite TL. pose proof FT as (WL & _). rewrite string_in_id by (eapply well_formed_no_nul; exact WL). rewrite (whole_fits e l1) by exact FT. cbn [orb].
      destruct (line_ok num e l1 i s es (S m) d x LS WL H) as (s1 & -> & H1).
      { destruct i; try exact I. cbn [names_of] in B. unfold str in *. rewrite app_length in B. lia. }
      cbn [rbind].
      assert (LR : length r < f).
      { assert (0 < length l1). { destruct l1; [|cbn; lia]. destruct K as [(b & K & _)|(-> & _)]; [destruct b; discriminate|]. rewrite E in NEF. exfalso. apply NEF. reflexivity. }
        rewrite E, app_length in LF. lia. }
      destruct i; cbn [apply_item has' names_of] in *.
      + change (Nat.min (S (length ws)) (S m)) with (S (Nat.min (length ws) m)) in H1. exact (IH f r is' s1 _ _ _ _ LO' F2' FT' H1 B LR).
      + apply (IH f r is' s1 _ _ _ _ LO' F2' FT' H1); [|exact LR]. unfold str in *. rewrite app_length in *. lia.
      + exact (IH f r is' s1 _ _ _ _ LO' F2' FT' H1 B LR).
      + exact (IH f r is' s1 _ _ _ _ LO' F2' FT' H1 B LR). }
  unfold load_WWL. destruct name as [|c name]; [congruence|].
  assert (WU : well_formed e (bytes "unity")).
  { exists (map (fun b => [b]) (bytes "unity")). split; [reflexivity|]. repeat (apply Forall_cons; [eexists; eexists; split; [reflexivity|]; split; [destruct e; cbn; lia|repeat constructor; lia]|]). apply Forall_nil. }
  destruct (strcmp_text e (c :: name) (bytes "unity") WF WU) as (z & E & Z0). rewrite E. cbn [rbind].
  destruct (Z.eqb_spec z 0) as [Y|Y]; [apply Z0 in Y; contradiction|].
  rewrite (G (S (length file)) file is start [] 9 [] 0%Z LO F2 FT start_has B (Nat.lt_succ_diag_r _)). reflexivity.
Qed.
Print Assumptions C108_no_weight.

(** ** "unity" *)
(** With "unity" every word weighs 1, and a compound word as many as it has parts; no file is read. *)
Theorem C108_unity : forall num e go sort file, sorts e sort -> exists t, load_WWL num e go sort (bytes "unity") file = Ok (Some t)
  /\ forall w, (~ In 61%N w -> well_formed e w -> weight e t 0 w = Ok 1000%Z)
     /\ (forall ps, In 61%N w -> length w < 100 -> parts w ps -> Forall (well_formed e) ps -> weight e t 0 w = Ok (1000 * Z.of_nat (length ps))%Z).
Proof.
  intros num e go sort file SO.
  assert (WB : forall s, Forall (fun c => (0 < c < 128)%N) s -> well_formed e s).
  { intros s F. exists (map (fun b => [b]) s). split; [induction s as [|b s IH]; [reflexivity|]; cbn [map concat app]; f_equal; apply IH; eapply Forall_inv_tail, F|].
    apply Forall_map. eapply Forall_impl; [|exact F]. intros c L. cbv beta in L |- *. exists c, []. split; [reflexivity|]. split.
    - destruct e; unfold char_size; cbn [length]; [reflexivity..| |]; left; (split; [lia|reflexivity]).
    - repeat constructor; lia. }
  assert (WU : well_formed e (bytes "unity")) by (apply WB; repeat (apply Forall_cons; [split; reflexivity|]); apply Forall_nil).
  assert (WT : well_formed e (bytes "the")) by (apply WB; repeat (apply Forall_cons; [split; reflexivity|]); apply Forall_nil).
  eexists. split.
  - unfold load_WWL. change (bytes "unity") with (117%N :: bytes "nity") at 1.
    destruct (strcmp_text e _ _ WU WU) as (z & E & I). cbv iota. rewrite E. cbn [rbind]. rewrite (proj2 I eq_refl). cbn [Z.eqb]. reflexivity.
  - set (x := {| ww_str := bytes "the"; ww_weight := Some ONE :: repeat None (MAX_W - 1) |}).
    set (t := {| l_desc := []; l_default := ONE; l_words := sort [x] |}).
    assert (FX : Forall (fun w => well_formed e (ww_str w)) [x]) by (constructor; [exact WT|constructor]).
    destruct (SO [x] FX) as (PM & SR).
    assert (G : forall w, well_formed e w -> get_weight e t 0 w = Ok 1000%Z).
    { intros w W. destruct (get_weight_ok e t 0 w W) as (z & E & H).
      - apply Forall_forall. intros y I. rewrite Forall_forall in FX. apply FX. apply (Permutation_in y (Permutation_sym PM)), I.
      - exact SR.
      - intros y I _. apply (Permutation_in y (Permutation_sym PM)) in I. destruct I as [<-|[]]. eexists. reflexivity.
      - rewrite E. f_equal. destruct H as [(y & I & _ & EV)|(_ & ->)]; [|reflexivity]. apply (Permutation_in y (Permutation_sym PM)) in I. destruct I as [<-|[]].
        cbn in EV. injection EV as <-. reflexivity. }
    intros w. split.
    + intros NI W. unfold weight. rewrite existsb_not by exact NI. apply G, W.
    + intros ps I L P WP. unfold weight. rewrite (proj2 (existsb_in 61%N w) I). destruct (Nat.ltb_spec (length w) 100); [|unfold str in *; lia].
      rewrite (parts_pieces _ _ P).
      destruct (sum_ok e t 0 (fun _ z => z = 1000%Z) ps) with (acc := 0%Z) as (zs & E & F2).
      { intros p IP. exists 1000%Z. split; [apply G; rewrite Forall_forall in WP; auto|reflexivity]. }
      rewrite E. f_equal. clear -F2. cbn [Z.add]. induction F2 as [|p z ps zs -> F IH]; [reflexivity|]. cbn [total fold_right length] in *. unfold total in IH. lia.
Qed.
Print Assumptions C108_unity.

(** ** The words of an alignment *)
(** The empty word, "@" and words that may be left out weigh nothing; any other word weighs as above. *)
Theorem C108_aligned_word : forall e t k,
  arc_weight e t k None false = Ok 0%Z
  /\ (forall opt, arc_weight e t k (Some [64%N]) opt = Ok 0%Z)
  /\ (forall w, well_formed e w -> arc_weight e t k (Some w) true = Ok 0%Z)
  /\ (forall w, well_formed e w -> w <> [64%N] -> arc_weight e t k (Some w) false = weight e t k w).
Proof.
  intros e t k.
  assert (WA : well_formed e [64%N]).
  { exists [[64%N]]. split; [reflexivity|]. constructor; [|constructor]. exists 64%N, []. split; [reflexivity|]. split; [destruct e; cbn; lia|repeat constructor; lia]. }
  split; [reflexivity|]. split; [|split].
  - intros opt. unfold arc_weight. destruct (strcmp_text e _ _ WA WA) as (z & E & I). rewrite E. cbn [rbind]. rewrite (proj2 I eq_refl). reflexivity.
  - intros w W. unfold arc_weight. destruct (strcmp_text e _ _ W WA) as (z & E & I). rewrite E. cbn [rbind]. destruct (z =? 0)%Z; reflexivity.
  - intros w W NE. unfold arc_weight. destruct (strcmp_text e _ _ W WA) as (z & E & I). rewrite E. cbn [rbind]. destruct (Z.eqb_spec z 0); [apply I in e0; contradiction|reflexivity].
Qed.
Print Assumptions C108_aligned_word.

(** ** What does not hold *)
(** A compound word of a hundred bytes or more is written past its buffer. *)
Theorem C108_long_compound_refuted : forall e t k w, In 61%N w -> 100 <= length w -> weight e t k w = Undef.
Proof.
  intros e t k w I L. unfold weight. rewrite (proj2 (existsb_in 61%N w) I). destruct (Nat.ltb_spec (length w) 100); [unfold str in *; lia|reflexivity].
Qed.
Print Assumptions C108_long_compound_refuted.

Definition eol : str := [10%N].
(** A column that is named but that a word has no weight in: an unset weight is used. *)
Theorem C108_missing_column_refuted : exists file, forall num go,
  exists t, load_WWL num ASCII go (fun l => l) (bytes "f") (Some file) = Ok (Some t)
    /\ l_desc t = [bytes "A"; bytes "B"] /\ weight ASCII t 1 (bytes "cat") = Undef.
Proof.
  exists (bytes ";; 'Headings' 'Word Spelling' 'A' 'B'" ++ eol ++ bytes "cat 2.5" ++ eol). intros num go.
  eexists. split; [vm_compute; reflexivity|]. split; reflexivity.
Qed.
Print Assumptions C108_missing_column_refuted.

(** An apostrophe in the line of the names is taken as a quotation mark without its partner, and the
    search goes on from a meaningless address. *)
Theorem C108_odd_quote_refuted : exists file, forall num go sort,
  load_WWL num ASCII go sort (bytes "f") (Some file) = Undef.
Proof.
  exists (bytes ";; 'Headings' 'Word Spelling' 'Speakers' weight' " ++ eol ++ bytes "cat 2.5" ++ eol). intros num go sort. vm_compute. reflexivity.
Qed.
Print Assumptions C108_odd_quote_refuted.

(** More than ten names are written past their array. *)
Theorem C108_eleven_names_refuted : exists file, forall num go sort,
  load_WWL num ASCII go sort (bytes "f") (Some file) = Undef.
Proof.
  exists (bytes ";; 'Headings' 'Word Spelling' 'a' 'b' 'c' 'd' 'e' 'f' 'g' 'h' 'i' 'j' 'k'" ++ eol). intros num go sort. vm_compute. reflexivity.
Qed.
Print Assumptions C108_eleven_names_refuted.

(** The default weight is looked for from the beginning of its line, not after its label. *)
Theorem C108_default_refuted : exists file, forall num go,
  exists t, load_WWL num ASCII go (fun l => l) (bytes "f") (Some file) = Ok (Some t)
    /\ l_default t = num (bytes "a b").
Proof.
  exists (bytes ";; 'a b' Default missing weight '0.5'" ++ eol ++ bytes "cat 2.5" ++ eol). intros num go.
  eexists. split; [vm_compute; reflexivity|]. reflexivity.
Qed.
Print Assumptions C108_default_refuted.

(** A file without words and names has nine columns. *)
Theorem C108_empty_file_refuted : forall num go sort, exists t,
  load_WWL num ASCII go sort (bytes "f") (Some []) = Ok (Some t) /\ length (l_desc t) = 9.
Proof. intros num go sort. eexists. split; [vm_compute; reflexivity|]. reflexivity. Qed.
Print Assumptions C108_empty_file_refuted.

(** A sixth weight of a word is dropped, although six columns may be named. *)
Theorem C108_sixth_weight_refuted : exists file, forall num go,
  exists t, load_WWL num ASCII go (fun l => l) (bytes "f") (Some file) = Ok (Some t)
    /\ length (l_desc t) = 6 /\ weight ASCII t 4 (bytes "cat") = Ok (num (bytes "5")) /\ weight ASCII t 5 (bytes "cat") = Undef.
Proof.
  exists (bytes ";; 'Headings' 'Word Spelling' 'a' 'b' 'c' 'd' 'e' 'f'" ++ eol ++ bytes "cat 1 2 3 4 5 6" ++ eol). intros num go.
  eexists. split; [vm_compute; reflexivity|]. split; [|split]; reflexivity.
Qed.
Print Assumptions C108_sixth_weight_refuted.

(** The list of "unity" has no column, so a summary over its columns shows nothing. *)
Theorem C108_unity_columns_refuted : forall num go sort file, exists t,
  load_WWL num ASCII go sort (bytes "unity") file = Ok (Some t) /\ l_desc t = [].
Proof. intros num go sort file. eexists. split; [vm_compute; reflexivity|]. reflexivity. Qed.
Print Assumptions C108_unity_columns_refuted.

(** ** Examples *)
Definition line1 : str := bytes ";; 'Headings' 'Word Spelling' 'A' 'Idf'" ++ eol.
Definition line2 : str := bytes ";; Default missing weight '0.5'" ++ eol.
Definition line3 : str := bytes "the 1 2" ++ eol.
Definition line4 : str := bytes "cat 3 4 " ++ eol.
Fixpoint insert (x : ww) (l : list ww) : list ww :=
  match l with
  | [] => [x]
  | y :: r => match strcmp ASCII (cstr (ww_str x)) (cstr (ww_str y)) with Ok z => if (z <=? 0)%Z then x :: l else y :: insert x r | _ => x :: l end
  end.
Example wwl_sort : sorts ASCII (fold_right insert []).
Proof.
  intros l. induction l as [|x l IH]; intros F; cbn [fold_right]; [split; constructor|].
  apply Forall_cons_iff in F. destruct F as (W & F). destruct (IH F) as (P & S1).
  assert (FS : Forall (fun w => well_formed ASCII (ww_str w)) (fold_right insert [] l)).
  { rewrite Forall_forall in *. intros y I. apply F. apply (Permutation_in y (Permutation_sym P)), I. }
  clear IH. revert P S1 FS. generalize (fold_right insert [] l). intros m P S1 FS. split.
  - rewrite P. clear. induction m as [|y m IH]; [reflexivity|]. cbn [insert]. destruct (strcmp _ _ _) as [z| | |]; [|reflexivity..]. destruct (z <=? 0)%Z; [reflexivity|].
    rewrite perm_swap. constructor. exact IH.
  - clear P. induction m as [|y m IH]; cbn [insert]; [repeat constructor|]. apply Forall_cons_iff in FS. destruct FS as (WY & FS).
    destruct (strcmp_text ASCII _ _ W WY) as (z & E & I). rewrite E. destruct (Z.leb_spec z 0).
    + constructor; [exact S1|]. constructor. exists z. split; [exact E|assumption].
    + apply Sorted_inv in S1. destruct S1 as (S1 & HR). specialize (IH S1 FS).
      assert (YX : exists z', strcmp ASCII (cstr (ww_str y)) (cstr (ww_str x)) = Ok z' /\ (z' <= 0)%Z).
      { destruct (Text_Thm.C40_comparison_is_a_total_order ASCII _ _ _ _ _ _ (wf_holds _ _ W) (wf_holds _ _ WY) (wf_holds _ _ W) W WY W) as (z12 & z21 & z23 & z13 & H1 & H2 & _ & _ & _ & _ & T & _).
        exists z21. split; [exact H2|]. rewrite H1 in E. injection E as <-. lia. }
      constructor; [exact IH|]. destruct m as [|y' m]; cbn [insert]; [constructor; exact YX|].
      destruct (strcmp ASCII (cstr (ww_str x)) (cstr (ww_str y'))) as [z0| | |]; [destruct (z0 <=? 0)%Z|..]; constructor; try exact YX. inversion HR; subst. assumption.
Qed.
Lemma ascii_ok s : forallb (fun c => (0 <? c)%N && (c <? 256)%N) s = true -> well_formed ASCII s.
Proof.
  intros H. exists (map (fun b => [b]) s). split; [induction s as [|b s IH]; [reflexivity|]; cbn [map concat app]; f_equal; apply IH; cbn [forallb] in H; apply andb_prop in H; tauto|].
  apply Forall_map, Forall_forall. intros c I. rewrite forallb_forall in H. specialize (H c I). apply andb_prop in H. destruct H as (H1 & H2). apply N.ltb_lt in H1, H2.
  exists c, []. split; [reflexivity|]. split; [reflexivity|]. repeat constructor; lia.
Qed.
Lemma absent_by P p l : map lower P = p -> after P l = None -> absent p l.
Proof.
  intros E A a m b -> I. assert (HM : after P (a ++ m ++ b) <> None).
  { clear A. apply AsStm_Proofs1.ignoring_iff in I. subst p. induction a as [|c a IH].
    - cbn [app]. destruct (m ++ b) eqn:EM; cbn [after]; unfold str in *; rewrite <- EM, map_app, I;
      (replace (starts (map lower P) _) with true by (symmetry; apply AsStm_Proofs1.starts_iff; eauto)); discriminate.
    - cbn [app after]. destruct (starts _ _); [discriminate|exact IH]. }
  congruence.
Qed.
Lemma spaced_by l w r : AsStm_Spec.word w -> forall ws, AsStm_Spec.spaced (32%N :: r) ws -> l = w ++ 32%N :: r -> AsStm_Spec.spaced l (w :: ws).
Proof. intros W ws S1 ->. apply (AsStm_Spec.sp_more []); [constructor|exact W|left; reflexivity|exact S1]. Qed.
Ltac solve_word := split; [discriminate|apply Forall_forall; intros c I; vm_compute in I; repeat (destruct I as [<-|I]; [unfold AsStm_Spec.blank; lia|]); destruct I].
(** A file with two columns, two words and a default weight *)
Example wwl_file : exists is, lines_of (line1 ++ line2 ++ line3 ++ line4) [line1; line2; line3; line4]
  /\ Forall2 line_says [line1; line2; line3; line4] is /\ Forall (fits ASCII) [line1; line2; line3; line4]
  /\ is = [INames [bytes "A"; bytes "Idf"]; IDefault (bytes "0.5"); IWord (bytes "the") [bytes "1"; bytes "2"]; IWord (bytes "cat") [bytes "3"; bytes "4"]].
Proof.
  eexists. split; [|split; [|split; [|reflexivity]]].
  - assert (LC : forall l r ls, (exists b, l = b ++ [10%N] /\ ~ In 10%N b) -> lines_of r ls -> lines_of (l ++ r) (l :: ls)).
    { intros l r ls (b & -> & NI) H. eapply lines_cons; [destruct b; discriminate| |exact H]. split; [reflexivity|]. left. eauto. }
    assert (LL : forall s, existsb (N.eqb 10) s = false -> exists b, s ++ eol = b ++ [10%N] /\ ~ In 10%N b).
    { intros s H. exists s. split; [reflexivity|]. intros I. apply existsb_in in I. congruence. }
    apply LC; [apply LL; reflexivity|]. apply LC; [apply LL; reflexivity|]. apply LC; [apply LL; reflexivity|].
    pose proof (LC line4 [] [] (LL (bytes "cat 3 4 ") eq_refl) lines_nil) as H. rewrite app_nil_r in H. exact H.
  - constructor; [|constructor; [|constructor; [|constructor; [|constructor]]]].
    + destruct (after_some HEADINGS line1 (bytes " 'Word Spelling' 'A' 'Idf'" ++ eol) eq_refl) as (a & P1).
      destruct (after_some SPELLING (bytes " 'Word Spelling' 'A' 'Idf'" ++ eol) (bytes " 'A' 'Idf'" ++ eol) eq_refl) as (a' & P2).
      eapply ls_names; [eexists; reflexivity|exact P1|exact P2|].
      apply (q_name (bytes " ") (bytes "A") (bytes " 'Idf'" ++ eol)); [cbn; lia|cbn; lia|].
      apply (q_name (bytes " ") (bytes "Idf") eol); [cbn; lia|cbn; lia|]. apply q_none. cbn; lia.
    + destruct (after_some MISSING line2 (bytes " '0.5'" ++ eol) eq_refl) as (a & P1).
      eapply (ls_default _ _ _ (bytes ";; Default missing weight ") (bytes "0.5") eol); [eexists; reflexivity|apply (absent_by HEADINGS); reflexivity|exact P1|reflexivity|cbn; lia|cbn; lia].
    + apply (ls_word _ (bytes "the") [bytes "1"; bytes "2"]); [intros (r & E); discriminate| |discriminate].
      eapply (spaced_by _ (bytes "the")); [solve_word| |reflexivity].
      apply (AsStm_Spec.sp_more [32%N] (bytes "1") 32%N (bytes "2" ++ eol)); [repeat constructor|solve_word|left; reflexivity|].
      apply (AsStm_Spec.sp_more [32%N] (bytes "2") 10%N []); [repeat constructor|solve_word|right; lia|]. apply AsStm_Spec.sp_end. repeat (apply Forall_cons; [first [left; reflexivity|right; lia]|]). apply Forall_nil.
    + apply (ls_word _ (bytes "cat") [bytes "3"; bytes "4"]); [intros (r & E); discriminate| |discriminate].
      eapply (spaced_by _ (bytes "cat")); [solve_word| |reflexivity].
      apply (AsStm_Spec.sp_more [32%N] (bytes "3") 32%N (bytes "4 " ++ eol)); [repeat constructor|solve_word|left; reflexivity|].
      apply (AsStm_Spec.sp_more [32%N] (bytes "4") 32%N eol); [repeat constructor|solve_word|left; reflexivity|]. apply AsStm_Spec.sp_end. repeat (apply Forall_cons; [first [left; reflexivity|right; lia]|]). apply Forall_nil.
  - repeat (apply Forall_cons; [split; [apply ascii_ok; reflexivity|left; apply Nat.ltb_lt; reflexivity]|]). apply Forall_nil.
Qed.
(** the compound word "the=dog" and the word "cat" in the second column *)
Example wwl_weights : forall num, exists t, load_WWL num ASCII false (fold_right insert []) (bytes "f") (Some (line1 ++ line2 ++ line3 ++ line4)) = Ok (Some t)
  /\ weight ASCII t 1 (bytes "the=dog") = Ok (num (bytes "2") + num (bytes "0.5"))%Z /\ weight ASCII t 1 (bytes "cat") = Ok (num (bytes "4"))
  /\ parts (bytes "the=dog") [bytes "the"; bytes "dog"].
Proof.
  intros num. eexists. split; [vm_compute; reflexivity|]. split; [vm_compute; destruct (num [50%N]); reflexivity|]. split; [vm_compute; reflexivity|].
  apply (pt_part [] (bytes "the") (bytes "=dog")); [constructor|discriminate|cbn; lia|right; eexists; reflexivity|].
  apply (pt_part [61%N] (bytes "dog") []); [repeat constructor|discriminate|cbn; lia|left; reflexivity|]. constructor. constructor.
Qed.
