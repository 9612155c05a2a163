(** Theorems on transcript lines with alternations. *)
From Coq Require Import List ZArith Arith Bool Ascii String Lia.
From Verif Require Import Base Graph_Model Graph_Spec Links_Model Links_Spec Links_Proofs Alt_Model Alt_Spec Alt_Proofs Alt_Proofs2.
Import ListNotations.
Local Open Scope res_scope.

(** ** C20 *)
(** Spaces around the special characters do not matter: the words of a line are those of the
    line with every special character between spaces. *)
Theorem C20_words_of_a_line : forall line, split_words (filter_space line) = lex line.
Proof. exact filter_space_lex. Qed.
Print Assumptions C20_words_of_a_line.

(** The paths through the tokens of a line spell exactly the non-empty word sequences the
    transcript denotes, the tokens made before are untouched, and every new token lies on such
    a path. *)
Theorem C20_paths_spell_the_transcript : forall line a fuel st,
  lex line = print_alts a -> ok_line a -> List.length (print_alts a) < fuel -> good st ->
  exists st' v new, parse_line fuel line st = Ok (st', v) /\ good st' /\
    ps_toks st' = ps_toks st ++ new /\
    (forall t, t < List.length (ps_toks st) -> nxt (ps_links st') t = nxt (ps_links st) t) /\
    (forall w, spells st' (vs_start v) (vs_end v) w <-> w <> [] /\ says_alts a w) /\
    (forall t, List.length (ps_toks st) <= t < List.length (ps_toks st') ->
       exists f l1 l2, In f (vs_start v) /\ walk (ps_links st') f l1 /\ List.last l1 f = t /\
         walk (ps_links st') t l2 /\ In (List.last l2 t) (vs_end v)).
Proof.
  intros line a fuel st Hl Hok Hf Hg. destruct (parse_correct None false a fuel st Hok Hf Hg) as (st' & v & E & Hp & _).
  destruct Hp as ((Hg' & Hfull) & ((new & Hn) & Hx) & _ & _ & Hs).
  exists st', v, new. split; [unfold parse_line; rewrite filter_space_lex, Hl; exact E|].
  split; [exact Hg'|]. split; [exact Hn|]. split; [exact Hx|]. split; [exact Hs|].
  intros t Ht. destruct (Hfull t Ht) as [(f & l1 & H1 & H2 & H3) (l2 & H4 & H5)]. exists f, l1, l2. auto.
Qed.
Print Assumptions C20_paths_spell_the_transcript.

(** The same for the lines with times, where "_" and "#" stand for spaces. *)
Theorem C20_paths_spell_the_timed_transcript : forall line a fuel opt start stop st,
  lex (replace_char "#" " " (replace_char "_" " " line)) = print_alts a -> ok_line a ->
  List.length (print_alts a) < fuel -> good st ->
  exists st' v new, parse_line_ex fuel line opt start stop st = Ok (st', v) /\ good st' /\
    ps_toks st' = ps_toks st ++ new /\
    (forall t, t < List.length (ps_toks st) -> nxt (ps_links st') t = nxt (ps_links st) t) /\
    (forall w, spells st' (vs_start v) (vs_end v) w <-> w <> [] /\ says_alts a w).
Proof.
  intros line a fuel opt b e st Hl Hok Hf Hg.
  destruct (parse_correct (Some (b, e)) opt a fuel st Hok Hf Hg) as (st' & v & E & Hp & _).
  destruct Hp as ((Hg' & Hfull) & ((new & Hn) & Hx) & _ & _ & Hs).
  exists st', v, new. split; [unfold parse_line_ex; rewrite filter_space_lex_ex, Hl; exact E|]. auto.
Qed.
Print Assumptions C20_paths_spell_the_timed_transcript.

(** A group is passed over exactly when it can stand for nothing. *)
Theorem C20_skippable : forall x opt a fuel st, ok_inner a -> List.length (print_alts a) < fuel -> good st ->
  exists st' v, parse fuel x opt (print_alts a) st = Ok (st', v) /\ (vs_trav v = true <-> says_alts a []).
Proof.
  intros x opt a fuel st Hok Hf Hg.
  destruct (parse_correct x opt a fuel st (proj1 (ok_inner_seqs a Hok)) Hf Hg) as (st' & v & E & _ & H).
  exists st', v. auto.
Qed.
Print Assumptions C20_skippable.

(** *** What goes wrong outside these transcripts *)
(** "} {" makes the parser call itself for ever. *)
Theorem C20_unbalanced_loops_refuted : forall fuel x opt st, parse fuel x opt ["}"%string; "{"%string] st = NoFuel.
Proof.
  induction fuel as [|f IH]; intros x opt st; [reflexivity|]. rewrite parse_S.
  change (separate_by_slash ["}"%string; "{"%string]) with [["}"%string; "{"%string]]. cbv iota.
  change (tokenise_words ["}"%string; "{"%string]) with [["}"%string; "{"%string]].
  cbn [seq_loop]. rewrite IH. reflexivity.
Qed.
Print Assumptions C20_unbalanced_loops_refuted.

Definition s2l (s : string) : list ascii := list_ascii_of_string s.

(** A group that is never closed is dropped with all that follows it. *)
Theorem C20_unclosed_group_refuted : exists st v,
  parse_line 20 (s2l "a { b c") empty_state = Ok (st, v) /\ map at_text (ps_toks st) = ["a"%string].
Proof. do 2 eexists. split; vm_compute; reflexivity. Qed.
Print Assumptions C20_unclosed_group_refuted.

(** "{ / }" becomes the word "/". *)
Theorem C20_slash_word_refuted : exists st v,
  parse_line 20 (s2l "x { / } y") empty_state = Ok (st, v) /\
  map at_text (ps_toks st) = ["x"; "/"; "y"]%string.
Proof. do 2 eexists. split; vm_compute; reflexivity. Qed.
Print Assumptions C20_slash_word_refuted.

(** A group with a sequence of two empty words cuts the line in two. *)
Theorem C20_two_empty_words_refuted : exists st v a,
  lex (s2l "a { @ @ } b") = print_alts a /\ says_alts a ["a"; "b"]%string /\
  parse_line 20 (s2l "a { @ @ } b") empty_state = Ok (st, v) /\
  ~ spells st (vs_start v) (vs_end v) ["a"; "b"]%string.
Proof.
  do 2 eexists. exists (AOne (SCons (IWord "a") (SCons (IGroup (AOne (SCons IEmpty (SCons IEmpty SNil)))) (SCons (IWord "b") SNil)))).
  split; [reflexivity|]. split; [|split; [vm_compute; reflexivity|]].
  - apply says_one. change ["a"; "b"]%string with (["a"%string] ++ [] ++ ["b"%string] ++ []).
    constructor; [constructor|]. constructor; [|repeat constructor].
    constructor. constructor. change (@nil string) with (@nil string ++ [] ++ []). repeat constructor.
  - intros (x & l & Hx & Hw & Hl & E). cbn in Hx, Hl. destruct Hx as [<-|[]]. destruct l as [|b l]; [discriminate|].
    destruct Hw as [Hw _]. destruct Hw.
Qed.
Print Assumptions C20_two_empty_words_refuted.

(** A sequence of two optional groups inside a group loses its empty reading. *)
Theorem C20_optional_sequence_refuted : exists st v a,
  lex (s2l "x { { a / @ } { b / @ } / c } y") = print_alts a /\ says_alts a ["x"; "y"]%string /\
  parse_line 40 (s2l "x { { a / @ } { b / @ } / c } y") empty_state = Ok (st, v) /\
  ~ spells st (vs_start v) (vs_end v) ["x"; "y"]%string.
Proof.
  do 2 eexists.
  exists (AOne (SCons (IWord "x") (SCons (IGroup (AMore
     (SCons (IGroup (AMore (SCons (IWord "a") SNil) (AOne (SCons IEmpty SNil))))
       (SCons (IGroup (AMore (SCons (IWord "b") SNil) (AOne (SCons IEmpty SNil)))) SNil))
     (AOne (SCons (IWord "c") SNil)))) (SCons (IWord "y") SNil)))).
  split; [reflexivity|]. split; [|split; [vm_compute; reflexivity|]].
  - apply says_one. change ["x"; "y"]%string with (["x"%string] ++ [] ++ ["y"%string] ++ []).
    constructor; [constructor|]. constructor; [|repeat constructor].
    assert (E : forall w, says_item (IGroup (AMore (SCons (IWord w) SNil) (AOne (SCons IEmpty SNil)))) []).
    { intros w. constructor. apply says_later. constructor. change (@nil string) with (@nil string ++ []). repeat constructor. }
    constructor. apply says_here. change (@nil string) with (@nil string ++ [] ++ []).
    constructor; [apply E|]. constructor; [apply E|constructor].
  - intros (p & l & Hp & Hw & Hl & E). cbn in Hp. destruct Hp as [<-|[]].
    destruct l as [|b [|c l]]; [discriminate| |discriminate]. destruct Hw as [Hw _].
    vm_compute in Hw. cbn in E. injection E as E.
    repeat (destruct Hw as [<-|Hw]; [vm_compute in E; discriminate|]). destruct Hw.
Qed.
Print Assumptions C20_optional_sequence_refuted.

(** ** C48 *)
(** The words of a timed line without alternations share its time evenly: word [i] starts at
    [start + i * d] and lasts [d], so that each begins where the previous one ends, all of them
    lie inside the segment, and less than one millisecond per word is left over. *)
Theorem C48_even_times : forall fuel line opt start stop st ws, good st ->
  lex (replace_char "#" " " (replace_char "_" " " line)) = ws -> Forall plain ws -> ws <> [] ->
  (start <= stop)%Z -> List.length ws < fuel ->
  exists st' v toks d, parse_line_ex fuel line opt start stop st = Ok (st', v) /\
    ps_toks st' = ps_toks st ++ toks /\ map at_text toks = ws /\
    (forall i t, nth_error toks i = Some t ->
       at_start t = (start + Z.of_nat i * d)%Z /\ at_dur t = d /\ at_opt t = opt /\
       (start <= at_start t)%Z /\ (at_start t + at_dur t <= stop)%Z) /\
    (0 <= d)%Z /\ (Z.of_nat (List.length ws) * d <= stop - start < Z.of_nat (List.length ws) * (d + 1))%Z.
Proof.
  intros fuel line opt b e st ws Hg Hl Hpl Hne Hbe Hf.
  destruct (parse_correct (Some (b, e)) opt (AOne (flat ws)) fuel st) as (st' & v & E & _).
  { cbn. apply flat_ok. exact Hpl. } { cbn [print_alts]. rewrite flat_print. exact Hf. } { exact Hg. }
  cbn [print_alts] in E. rewrite flat_print in E.
  destruct (parse_flat fuel (Some (b, e)) opt ws st st' v Hpl E) as [Ht|Ht]; [|contradiction].
  set (n := List.length ws) in *. assert (Hn : n >= 1) by (subst n; destruct ws; [contradiction|cbn; lia]).
  set (d := if n =? 1 then (e - b)%Z else Z.quot (e - b) (Z.of_nat n)).
  assert (Hd : (0 <= d /\ Z.of_nat n * d <= e - b < Z.of_nat n * (d + 1))%Z).
  { unfold d. destruct (Nat.eqb_spec n 1) as [->|H1]; [change (Z.of_nat 1) with 1%Z; lia|].
    rewrite Z.quot_div_nonneg by lia.
    pose proof (Z.div_mod (e - b) (Z.of_nat n) ltac:(lia)). pose proof (Z.mod_pos_bound (e - b) (Z.of_nat n) ltac:(lia)).
    pose proof (Z.div_pos (e - b) (Z.of_nat n) ltac:(lia) ltac:(lia)). nia. }
  exists st', v, (toks_from (Some (b, e)) opt n 0 ws), d.
  split; [unfold parse_line_ex; rewrite filter_space_lex_ex, Hl; exact E|]. split; [exact Ht|]. split; [|split; [|exact Hd]].
  - clear. generalize n, 0. clear n. induction ws as [|w r IH]; intros m i; [reflexivity|]. cbn [toks_from map]. rewrite IH.
    f_equal. cbn. destruct (m =? 1); reflexivity.
  - intros i t Hi.
    assert (Hlt : i < n). { pose proof (toks_from_len (Some (b, e)) opt n ws 0) as L. fold n in L. rewrite <- L. apply nth_error_Some. congruence. }
    destruct (nth_error ws i) as [w|] eqn:Ew; [|apply nth_error_None in Ew; subst n; lia].
    rewrite (toks_from_nth (Some (b, e)) opt n ws 0 i w Ew) in Hi.
    assert (Et : t = make_token (Some (b, e)) opt n i w) by (change (0 + i) with i in Hi; congruence). rewrite Et. clear Et Hi.
    assert (at_start (make_token (Some (b, e)) opt n i w) = (b + Z.of_nat i * d)%Z /\
            at_dur (make_token (Some (b, e)) opt n i w) = d /\ at_opt (make_token (Some (b, e)) opt n i w) = opt) as (-> & -> & ->).
    { unfold make_token, d. destruct (Nat.eqb_spec n 1) as [H1|H1]; cbn [at_start at_dur at_opt]; [|auto].
      assert (i = 0) by lia. subst i. split; [lia|auto]. }
    split; [reflexivity|]. split; [reflexivity|]. split; [reflexivity|]. split; nia.
Qed.
Print Assumptions C48_even_times.

(** The last word need not end where the segment ends. *)
Theorem C48_reaches_the_end_refuted : exists st v t,
  parse_line_ex 9 (s2l "a b c") false 0 100 empty_state = Ok (st, v) /\
  nth_error (ps_toks st) 2 = Some t /\ (at_start t + at_dur t = 99)%Z.
Proof. do 3 eexists. split; [vm_compute; reflexivity|]. split; vm_compute; reflexivity. Qed.
Print Assumptions C48_reaches_the_end_refuted.

(** Words in a group are given the whole time of the segment, not the share of the group: on
    the path "a b c d" the third word starts after the fourth. *)
Theorem C48_groups_refuted : exists st v tc td,
  parse_line_ex 20 (s2l "a { b c / x } d") false 0 90 empty_state = Ok (st, v) /\
  nth_error (ps_toks st) 2 = Some tc /\ nth_error (ps_toks st) 4 = Some td /\
  at_text tc = "c"%string /\ at_text td = "d"%string /\ edge (ps_links st) 2 4 /\
  (at_start tc = 45 /\ at_dur tc = 45 /\ at_start td = 60)%Z.
Proof.
  do 4 eexists. split; [vm_compute; reflexivity|]. split; [reflexivity|]. split; [reflexivity|].
  split; [reflexivity|]. split; [reflexivity|]. split; [cbv; auto|]. split; [reflexivity|]. split; reflexivity.
Qed.
Print Assumptions C48_groups_refuted.

(** ** C55, from the text of the lines *)
(** Lines whose transcripts are as in C20 and have no reading that begins another one give a
    speech the alignment can use. *)
Theorem C55_lines_are_well_formed : forall fuel lines als e,
  Forall2 (fun l a => lex l = print_alts a /\ ok_line a /\ prefix_free a /\ List.length (print_alts a) < fuel) lines als ->
  exists st segs, load_speech fuel lines = Ok (st, segs) /\ List.length segs = List.length lines /\
    ((forall t, te_prec e t = prc (ps_links st) t) ->
     exists d, build_dimension (nxt (ps_links st)) (S (List.length (ps_toks st))) segs = Ok d /\
       (forall t, In t (d_toks d) <-> speech_token (nxt (ps_links st)) segs t) /\ wf_dim e d).
Proof.
  intros fuel lines als e H. destruct (load_speech_ok fuel lines als H) as (st & segs & E & Hg & Hls & Hlen & Hin).
  exists st, segs. split; [exact E|]. split; [exact Hlen|]. intros He.
  destruct (build_wf (ps_links st) (fun t => t) (seq 0 (List.length (ps_toks st))) (S (List.length (ps_toks st))) segs e)
    as (d & H1 & H2 & H3 & _); auto.
  - apply Hg.
  - intros t p Hp. apply (proj2 Hg). unfold edge. apply (count_occ_In Nat.eq_dec). rewrite (proj1 Hg p t).
    apply (count_occ_In Nat.eq_dec). exact Hp.
  - intros a _ b Hb. apply in_seq. apply (proj2 Hg) in Hb. lia.
  - intros s Hs x Hx. apply Hin in Hx; [|exact Hs]. apply in_seq. lia.
  - rewrite seq_length. lia.
  - exists d. auto.
Qed.
Print Assumptions C55_lines_are_well_formed.

(** ** Concrete cases *)
Definition case_alts : alts :=
  AOne (SCons (IWord "the") (SCons (IGroup (AMore (SCons (IWord "big") (SCons (IWord "cat") SNil))
    (AMore (SCons IEmpty SNil) (AOne (SCons (IGroup (AMore (SCons (IWord "a") SNil) (AOne (SCons (IWord "b") SNil)))) SNil)))))
    (SCons (IWord "sat") SNil))).
Example C20_case : lex (s2l "the {big cat/@/{a/b}} sat") = print_alts case_alts /\ ok_line case_alts /\
  says_alts case_alts ["the"; "sat"]%string /\ good empty_state.
Proof.
  split; [vm_compute; reflexivity|]. split; [|split; [|exact good_empty]].
  - cbn. unfold plain, solid. cbn.
    assert (H : ~ says_seq (SCons (IWord "big") (SCons (IWord "cat") SNil)) []).
    { intros H. inversion H as [|? ? ? ? H1 H2 H3 H4]; subst. inversion H1; subst. discriminate. }
    repeat split; try discriminate; auto.
  - apply says_one. change ["the"; "sat"]%string with (["the"%string] ++ [] ++ ["sat"%string] ++ []).
    constructor; [constructor|]. constructor; [|repeat constructor].
    constructor. apply says_later. apply says_here. change (@nil string) with (@nil string ++ []). repeat constructor.
Qed.

Example C48_case : lex (replace_char "#" " " (replace_char "_" " " (s2l "uh_huh#yes"))) = ["uh"; "huh"; "yes"]%string /\
  Forall plain ["uh"; "huh"; "yes"]%string.
Proof. split; [vm_compute; reflexivity|]. repeat constructor; discriminate. Qed.

Example C55_lines_case : exists als,
  Forall2 (fun l a => lex l = print_alts a /\ ok_line a /\ prefix_free a /\ List.length (print_alts a) < 20)
    [s2l "a {b/c}"; s2l ""; s2l "d"] als.
Proof.
  exists [AOne (SCons (IWord "a") (SCons (IGroup (AMore (SCons (IWord "b") SNil) (AOne (SCons (IWord "c") SNil)))) SNil));
          AOne SNil; AOne (SCons (IWord "d") SNil)].
  assert (L1 : forall w, says_seq (SCons (IWord w) SNil) [w]) by (intros w; change [w] with ([w] ++ @nil string); repeat constructor).
  assert (L2 : forall w l, says_seq (SCons (IWord w) SNil) l -> l = [w]).
  { intros w l H. apply says_single in H. apply says_word_iff in H. exact H. }
  constructor; [|constructor; [|constructor; [|constructor]]].
  - split; [vm_compute; reflexivity|]. split; [|split; [|cbn; lia]].
    + cbn. unfold plain, solid. cbn. repeat split; try discriminate; auto.
    + assert (G : forall w, says_alts (AOne (SCons (IWord "a") (SCons (IGroup (AMore (SCons (IWord "b") SNil) (AOne (SCons (IWord "c") SNil)))) SNil))) w -> List.length w = 2).
      { intros w H. apply says_one_iff in H. apply says_cons_iff in H. destruct H as (w1 & w2 & -> & H1 & H2).
        apply says_word_iff in H1. subst w1. apply says_single in H2. apply says_group_iff in H2.
        inversion H2 as [|? ? ? H3|? ? ? H3]; subst; [apply L2 in H3; subst; reflexivity|].
        apply says_one_iff in H3. apply L2 in H3. subst. reflexivity. }
      intros w u H1 H2 _. apply G in H1, H2. rewrite app_length in H2. destruct u; [reflexivity|cbn in H2; lia].
  - split; [vm_compute; reflexivity|]. split; [exact I|]. split; [|cbn; lia].
    intros w u H1 _ Hw. apply says_one_iff, says_nil_iff in H1. contradiction.
  - split; [vm_compute; reflexivity|]. split; [cbn; unfold plain; repeat split; discriminate|]. split; [|cbn; lia].
    intros w u H1 H2 _. apply says_one_iff, L2 in H1. apply says_one_iff, L2 in H2. subst w. destruct u; [reflexivity|discriminate].
Qed.
