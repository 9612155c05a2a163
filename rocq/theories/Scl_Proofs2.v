(** Proofs about the command line of sclite: every option, and the loop. *)
From Coq Require Import String.
From Coq Require Import List ZArith NArith Arith Bool Lia.
From Verif Require Store_Model Store_Proofs.
From Verif Require Import Base Sgml_Model Scl_Model Scl_Spec Scl_Proofs1.
Import ListNotations.
Local Open Scope list_scope.
Local Open Scope res_scope.

Ltac snoc := unfold c1, c2, c3, chars_of, reduce_of, ref_of; rewrite ?on_snoc, ?value_snoc, ?directed_snoc, ?odd_snoc, ?ascii_snoc, ?reports_snoc, ?confs_snoc, ?last_snoc;
  cbn [flag_dec setting_dec flag_rec flag_rect setting_rec setting_rect algorithm_dec algorithm_rec algorithm_rect];
  cbv beta iota; rewrite ?orb_false_r, ?orb_true_r, ?xorb_false_r, ?app_nil_r.
Ltac common V := first [ rewrite (v_f _ _ V), ?value_snoc; reflexivity | rewrite (v_w _ _ V), ?value_snoc; reflexivity
  | rewrite (v_h _ _ V), ?hyps_snoc; cbn [hyp_of]; rewrite ?app_nil_r; reflexivity ].
Ltac bs V := let x := fresh in intros x; destruct x; cbn [b_ setb sets set_feedback set_width add_hyp bv_dec bv_rec bv_rect sumbool_rec sumbool_rect]; cbv beta iota;
  rewrite ?(v_b _ _ V); cbn [bspec]; snoc; try reflexivity.
Ltac ss V := let y := fresh in intros y; destruct y; cbn [s_ setb sets set_feedback set_width add_hyp sv_dec sv_rec sv_rect]; cbv beta iota; rewrite ?(v_s _ _ V); cbn [sspec]; snoc; try reflexivity.
Ltac go V := split; [bs V|ss V|..]; cbn [feedback width hyps setb sets set_feedback set_width add_hyp]; try common V.
Lemma inv_ref l s f fm : inv l s -> inv (l ++ [Reference f fm]) (match fm with Some w => sets SRefFmt w (sets SRef f s) | None => sets SRef f s end).
Proof. intros V. destruct fm; go V. Qed.
Lemma inv_hyp l s f fm : inv l s ->
  inv (l ++ [Hypothesis_ f fm]) (add_hyp {| h_file := f; h_fmt := match fm with Some (w, _) => w | None => B "trn" end; h_title := match fm with Some (_, Some t) => t | _ => f end |} s).
Proof. intros V. go V. rewrite (v_h _ _ V), hyps_snoc, map_app. f_equal. destruct fm as [[w [t|]]|]; reflexivity. Qed.
Definition set_flag (w : flag) (s : st) : st :=
  match w with
  | CaseSensitive => setb BCase true s | UseDiff => setb BDiff true s | Fragments => setb BFrag true s | OptionalDeletions => setb BOptDel true s
  | PipeOut => setb BOutSet true (setb BPipeOut true s) | PipeIn => setb BPipeIn true s | TimeAlign => setb BTime true s
  end.
Lemma inv_flag l s w : inv l s -> inv (l ++ [Flag w]) (set_flag w s).
Proof. intros V. destruct w; unfold set_flag; go V. Qed.
Definition set_it (w : setting) (v : list N) (s : st) : st :=
  match w with
  | Id => sets SId v s | Width => set_width (atoi v) s | Level => setb BFbSet true (set_feedback (atoi v) s) | LanguageModel => sets SLm v s | Directory => sets SDir v s
  | Name => sets SName v s | Weights => sets SWwl v s
  end.
Lemma inv_set l s w v : inv l s -> inv (l ++ [Set_ w v]) (set_it w v s).
Proof. intros V. destruct w; unfold set_it; go V; rewrite value_snoc; reflexivity. Qed.
Lemma inv_segment l s a x k : inv l s ->
  inv (l ++ [Segment a x k]) ((if k then setb BAsciiToo true else fun s => s) (sets SLexicon x (flip (match a with Algo1 => BAlgo1 | Algo2 => BAlgo2 end) s))).
Proof. intros V. unfold flip. destruct a, k; cbv beta iota; go V; rewrite ?xorb_true_r; reflexivity. Qed.
Lemma inv_reports l s w : inv l s -> inv (l ++ [Reports w]) (setb BOutSet true (fold_left (fun s w => report_word w s) w s)).
Proof.
  intros V. destruct (fold_reports w (report_words l) s) as (R & O1 & O2 & O3 & O4 & O5); [intros r; rewrite (v_b _ _ V); reflexivity|].
  split; cbn [s_ setb feedback width hyps]; rewrite ?O2, ?O3, ?O4, ?O5.
  - intros x. destruct x; cbn [b_ setb bv_dec bv_rec bv_rect sumbool_rec sumbool_rect]; cbv beta iota; rewrite ?R;
      rewrite ?O1 by (intros ? K; discriminate K); rewrite ?(v_b _ _ V); cbn [bspec]; snoc; try reflexivity.
  - ss V.
  - common V.
  - common V.
  - common V.
Qed.
Lemma inv_confs l s w : inv l s -> inv (l ++ [Confidence w]) (setb BOutSet true (fold_left (fun s w => conf_word w s) w s)).
Proof.
  intros V. destruct (fold_confs w (conf_words l) s) as (R & O1 & O2 & O3 & O4 & O5); [intros r; rewrite (v_b _ _ V); reflexivity|].
  split; cbn [s_ setb feedback width hyps]; rewrite ?O2, ?O3, ?O4, ?O5.
  - intros x. destruct x; cbn [b_ setb bv_dec bv_rec bv_rect sumbool_rec sumbool_rect]; cbv beta iota; rewrite ?R;
      rewrite ?O1 by (intros ? K; discriminate K); rewrite ?(v_b _ _ V); cbn [bspec]; snoc; try reflexivity.
  - ss V.
  - common V.
  - common V.
  - common V.
Qed.
(** ** Characters and reductions *)
Definition split_word (x : split) : list N := match x with NoAscii => B "NOASCII" | DeleteHyphens => B "DH" end.
Definition side_word (x : side) : list N := match x with OfRef => B "ref" | OfHyp => B "hyp" end.
Lemma has_cons {A} (dec : forall a b : A, {a = b} + {a <> b}) y l x : has dec (y :: l) x = (if dec y x then true else false) || has dec l x.
Proof.
  unfold has. destruct (in_dec dec x (y :: l)) as [I|I]; destruct (in_dec dec x l) as [J|J]; destruct (dec y x) as [E|E]; try reflexivity; exfalso.
  - destruct I as [I|I]; [congruence|contradiction].
  - apply I. right. exact J.
  - apply I. right. exact J.
  - apply I. left. exact E.
Qed.
Lemma char_loop w rest s : stops rest -> exists s', word_loop char_word (map split_word w ++ rest) s = Ok (s', rest) /\
  b_ s' BNoAscii = b_ s BNoAscii || has split_dec w NoAscii /\ b_ s' BDelHyp = b_ s BDelHyp || has split_dec w DeleteHyphens /\
  other_b s s' (fun x => x <> BNoAscii /\ x <> BDelHyp).
Proof.
  intros R. revert s. induction w as [|x w IH]; intros s; cbn [map app].
  - exists s. rewrite !orb_false_r. split; [|repeat split]. destruct rest as [|y r]; cbn [word_loop]; [reflexivity|]. cbn [stops] in R. rewrite R. reflexivity.
  - destruct x; cbn [split_word word_loop].
    + destruct (IH (setb BNoAscii true s)) as (s' & E1 & E2 & E3 & E4 & E5). exists s'.
      split; [exact E1|]. rewrite E2, E3, !has_cons. cbn [b_ setb bv_dec bv_rec bv_rect split_dec split_rec split_rect]. cbv beta iota.
      split; [rewrite orb_true_r; reflexivity|]. split; [reflexivity|]. split; [|exact E5]. intros y [K1 K2]. rewrite E4 by (split; assumption). apply setb_other. exact K1.
    + destruct (IH (setb BDelHyp true s)) as (s' & E1 & E2 & E3 & E4 & E5). exists s'.
      split; [exact E1|]. rewrite E2, E3, !has_cons. cbn [b_ setb bv_dec bv_rec bv_rect split_dec split_rec split_rect]. cbv beta iota.
      split; [reflexivity|]. split; [rewrite orb_true_r; reflexivity|]. split; [|exact E5]. intros y [K1 K2]. rewrite E4 by (split; assumption). apply setb_other. exact K2.
Qed.
Lemma reduce_loop w rest s : stops rest -> exists s', word_loop reduce_word (map side_word w ++ rest) s = Ok (s', rest) /\
  b_ s' BRedRef = b_ s BRedRef || has side_dec w OfRef /\ b_ s' BRedHyp = b_ s BRedHyp || has side_dec w OfHyp /\
  other_b s s' (fun x => x <> BRedRef /\ x <> BRedHyp).
Proof.
  intros R. revert s. induction w as [|x w IH]; intros s; cbn [map app].
  - exists s. rewrite !orb_false_r. split; [|repeat split]. destruct rest as [|y r]; cbn [word_loop]; [reflexivity|]. cbn [stops] in R. rewrite R. reflexivity.
  - destruct x; cbn [side_word word_loop].
    + destruct (IH (setb BRedRef true s)) as (s' & E1 & E2 & E3 & E4 & E5). exists s'.
      split; [exact E1|]. rewrite E2, E3, !has_cons. cbn [b_ setb bv_dec bv_rec bv_rect side_dec side_rec side_rect]. cbv beta iota.
      split; [rewrite orb_true_r; reflexivity|]. split; [reflexivity|]. split; [|exact E5]. intros y [K1 K2]. rewrite E4 by (split; assumption). apply setb_other. exact K1.
    + destruct (IH (setb BRedHyp true s)) as (s' & E1 & E2 & E3 & E4 & E5). exists s'.
      split; [exact E1|]. rewrite E2, E3, !has_cons. cbn [b_ setb bv_dec bv_rec bv_rect side_dec side_rec side_rect]. cbv beta iota.
      split; [reflexivity|]. split; [rewrite orb_true_r; reflexivity|]. split; [|exact E5]. intros y [K1 K2]. rewrite E4 by (split; assumption). apply setb_other. exact K2.
Qed.
Lemma inv_chars l s w rest : inv l s -> stops rest -> exists s',
  word_loop char_word (map split_word w ++ rest) (setb BDelHyp false (setb BNoAscii false (setb BChar true s))) = Ok (s', rest) /\ inv (l ++ [Characters w]) s'.
Proof.
  intros V R. destruct (char_loop w rest (setb BDelHyp false (setb BNoAscii false (setb BChar true s))) R) as (s' & E1 & E2 & E3 & O1 & O2 & O3 & O4 & O5).
  exists s'. split; [exact E1|]. split; rewrite ?O2, ?O3, ?O4, ?O5; cbn [s_ setb feedback width hyps]; [|ss V|common V|common V|common V].
  intros x. destruct x; rewrite ?E2, ?E3; rewrite ?O1 by (split; discriminate); cbn [b_ setb bv_dec bv_rec bv_rect sumbool_rec sumbool_rect]; cbv beta iota;
    rewrite ?(v_b _ _ V); cbn [bspec]; snoc; reflexivity.
Qed.
Lemma inv_reduce l s w rest : inv l s -> stops rest -> exists s',
  (let* (s, r) := word_loop reduce_word (map side_word w ++ rest) (setb BRedHyp false (setb BRedRef false s)) in
   Ok (if negb (b_ s BRedRef) && negb (b_ s BRedHyp) then setb BRedRef true s else s, r)) = Ok (s', rest) /\ inv (l ++ [Reduce w]) s'.
Proof.
  intros V R. destruct (reduce_loop w rest (setb BRedHyp false (setb BRedRef false s)) R) as (s' & E1 & E2 & E3 & O1 & O2 & O3 & O4 & O5).
  rewrite E1. cbn [rbind]. eexists. split; [reflexivity|].
  assert (D : w = [] \/ has side_dec w OfRef || has side_dec w OfHyp = true /\ w <> []).
  { destruct w as [|[] w]; [left; reflexivity|right..]; rewrite !has_cons; (split; [|discriminate]); cbn [side_dec side_rec side_rect]; cbv beta iota; cbn [orb]; rewrite ?orb_true_r; reflexivity. }
  cbn [b_ setb bv_dec bv_rec bv_rect sumbool_rec sumbool_rect] in E2, E3. cbv beta iota in E2, E3. cbn [orb] in E2, E3.
  assert (Q : match w with [] => (true, false) | _ => (has side_dec w OfRef, has side_dec w OfHyp) end =
              (b_ (if negb (b_ s' BRedRef) && negb (b_ s' BRedHyp) then setb BRedRef true s' else s') BRedRef,
               b_ (if negb (b_ s' BRedRef) && negb (b_ s' BRedHyp) then setb BRedRef true s' else s') BRedHyp)).
  { rewrite E2, E3. destruct D as [->|[D N]].
    - cbn [negb andb has in_dec]. change (has side_dec [] OfRef) with false. change (has side_dec [] OfHyp) with false. cbn [negb andb].
      cbn [b_ setb bv_dec bv_rec bv_rect sumbool_rec sumbool_rect]. rewrite E3. reflexivity.
    - rewrite <- negb_orb, D. cbn [negb]. rewrite E2, E3. destruct w; [congruence|reflexivity]. }
  assert (T : other_b s' (if negb (b_ s' BRedRef) && negb (b_ s' BRedHyp) then setb BRedRef true s' else s') (fun x => x <> BRedRef /\ x <> BRedHyp)).
  { destruct (_ && _); [|repeat split]. split; [|repeat split]. intros x [K1 K2]. apply setb_other. exact K1. }
  set (t := if negb (b_ s' BRedRef) && negb (b_ s' BRedHyp) then setb BRedRef true s' else s') in *. clearbody t.
  destruct T as (T1 & T2 & T3 & T4 & T5).
  split; rewrite ?T2, ?T3, ?T4, ?T5, ?O2, ?O3, ?O4, ?O5; cbn [s_ setb feedback width hyps]; [|ss V|common V|common V|common V].
  intros x. destruct x; try (rewrite T1 by (split; discriminate); rewrite O1 by (split; discriminate); cbn [b_ setb bv_dec bv_rec bv_rect sumbool_rec sumbool_rect]; cbv beta iota;
    rewrite ?(v_b _ _ V); cbn [bspec]; snoc; reflexivity).
  - cbn [bspec]. snoc. destruct w; [injection Q as Q1 Q2|injection Q as Q1 Q2]; rewrite <- Q1; reflexivity.
  - cbn [bspec]. snoc. destruct w; [injection Q as Q1 Q2|injection Q as Q1 Q2]; rewrite <- Q2; reflexivity.
Qed.
