(** Proofs about the command line of asclite: every option. *)
From Coq Require Import String.
From Coq Require Import List ZArith NArith Arith Bool Lia.
From Verif Require Store_Model Store_Proofs.
From Verif Require Import Base Sgml_Model Args_Model Args_Spec Args_Proofs1.
Import ListNotations.
Local Open Scope list_scope.

Lemma inv_hyp l s f fm t : inv l s ->
  inv (l ++ [Hypothesis_ f fm t]) (set_hyps (hyps s ++ [{| i_file := f; i_format := hname (or_else fm Htrn); i_title := or_else t [] |}]) s).
Proof.
  intros V. split; [bs V|ss V|..]; cbn [feedback outs hyps ref props ok set_hyps]; try common V.
Qed.
Lemma inv_ref l s f fm : inv l s -> inv (l ++ [Reference f fm]) (set_ref (Some {| i_file := f; i_format := rname (or_else fm Rtrn); i_title := [] |}) s).
Proof.
  intros V. split; [bs V|ss V|..]; cbn [feedback outs hyps ref props ok set_ref]; try common V.
  all: unfold ref_of; rewrite last_snoc; reflexivity.
Qed.
Lemma inv_uem l s f w : inv l s -> inv (l ++ [Uem f w]) (setb BUem true (sets SUem (sname (or_else w OnBoth)) (sets SUemFile f s))).
Proof. intros V. split; [bs V|ss V|..]; cbn [feedback outs hyps ref props ok set_ref setb sets]; try common V. Qed.
Lemma inv_self l s w : inv l s -> inv (l ++ [SelfOverlap w]) (setb BAuto true (sets SAuto (sname (or_else w OnBoth)) s)).
Proof. intros V. split; [bs V|ss V|..]; cbn [feedback outs hyps ref props ok set_ref setb sets]; try common V. Qed.
Lemma inv_optional l s w : inv l s -> inv (l ++ [Optional w]) (sets SOptional (sname (or_else w OnBoth)) s).
Proof. intros V. split; [bs V|ss V|..]; cbn [feedback outs hyps ref props ok set_ref setb sets]; try common V. Qed.
Definition set_it (w : setting) (v : list N) (s : st) : st :=
  match w with
  | Utterance => sets SUtterance v (setb BUtterance true s) | Prune => sets SPrune v (setb BPrune true s) | WordTime => sets SWord v (setb BWord true s)
  | SpeakerFile => sets SSpkr v (setb BSpkr true s) | OverlapLimit => sets SMaxOver v (setb BMaxOver true s) | OverlapMin => sets SMinOver v (setb BMinOver true s)
  | OnlyGroup => sets SOnly v (setb BOnly true s) | Compression => sets SMemory v (setb BMemory true s) | MemoryLimit => sets SMaxGb v (setb BMaxGb true s)
  | DifficultyLimit => sets SDiff v (setb BDiff true s) | DifficultyMin => sets SMinDiff v (setb BMinDiff true s)
  | Directory => sets SOutDir v s | Level => set_feedback (atoi v) s | Width => set_width (atoi v) s | Threads => sets SThreads v s
  end.
Lemma inv_set l s w v : inv l s -> inv (l ++ [Set_ w v]) (set_it w v s).
Proof.
  intros V. destruct w; unfold set_it; (split; [bs V|ss V|..]); cbn [feedback outs hyps ref props ok set_it set_width set_feedback setb sets]; try common V.
  rewrite value_snoc. reflexivity.
Qed.
Lemma keys_mput (m : Store_Model.smap (list N)) n v : NoDup (map fst m) -> NoDup (map fst (Store_Model.mput m n v)) /\ forall k, In k (map fst (Store_Model.mput m n v)) -> k = n \/ In k (map fst m).
Proof.
  induction m as [|[k x] m IH]; intros H; cbn [Store_Model.mput map fst] in *.
  - split; [constructor; [intros []|constructor]|intros k [<-|[]]; left; reflexivity].
  - inversion H as [|? ? H1 H2]; subst. destruct (Store_Model.str_eqb k n) eqn:E; cbn [map fst]; [split; [exact H|intros k' K; right; exact K]|].
    destruct (IH H2) as [A1 A2]. split.
    + constructor; [|exact A1]. intros K. apply A2 in K. destruct K as [->|K]; [rewrite Store_Proofs.str_eqb_refl in E; discriminate|contradiction].
    + intros k' [<-|K]; [right; left; reflexivity|]. apply A2 in K. destruct K as [->|K]; [left; reflexivity|right; right; exact K].
Qed.
Lemma inv_property l s n v : inv l s -> inv (l ++ [Property n v]) (set_props (Store_Model.mput (props s) n v) (setb BProperty true s)).
Proof.
  intros V. split; [bs V|ss V|..]; cbn [feedback outs hyps ref props ok set_props setb sets]; try common V.
  - intros k. rewrite Store_Proofs.massoc_mput, (v_p _ _ V). unfold property_of. rewrite last_snoc. change (Store_Model.str_eqb n k) with (same n k). rewrite same_dec.
    destruct (list_eq_dec N.eq_dec n k); reflexivity.
  - apply keys_mput. exact (v_n _ _ V).
Qed.
Lemma inv_output l s r : inv l s -> inv (l ++ [Output r]) (set_outs (outs s ++ map oname r) s).
Proof.
  intros V. split; [bs V|ss V|..]; cbn [feedback outs hyps ref props ok set_outs setb sets]; try common V.
Qed.

(** ** Steps *)
Lemma dash_not (w : list N) (c : N) r : dash w = true -> c <> 45%N -> same w (c :: r) = false.
Proof. intros D C. apply dash_iff in D. destruct D as (x & ->). apply Store_Proofs.str_eqb_neq. intros [= K _]. congruence. Qed.
Lemma hname_not_dash f : dash (hname f) = false. Proof. destruct f; reflexivity. Qed.
Lemma hyp_step f fm t rest s : usable (Hypothesis_ f fm t) -> stops rest ->
  hyp_arg (f :: opt_word hname fm ++ opt_word (fun t => t) t ++ rest) s =
  (set_hyps (hyps s ++ [{| i_file := f; i_format := hname (or_else fm Htrn); i_title := or_else t [] |}]) s, rest).
Proof.
  intros U R. destruct t as [t|].
  - destruct U as [U1 U2]. destruct fm as [fm|]; [|congruence]. cbn [opt_word app]. apply no_dash_false in U2.
    destruct fm; unfold hyp_arg; cbn [hname same]; (match goal with |- context [same (B ?x) _] => idtac end || idtac);
      [change (same (B "ctm") (B "ctm")) with true | change (same (B "rttm") (B "ctm")) with false; change (same (B "rttm") (B "rttm")) with true
       | change (same (B "trn") (B "ctm")) with false; change (same (B "trn") (B "rttm")) with false; change (same (B "trn") (B "trn")) with true];
      cbv beta iota; rewrite U2; reflexivity.
  - cbn [opt_word app]. destruct fm as [fm|]; cbn [opt_word app].
    + destruct fm; unfold hyp_arg;
      [change (same (hname Hctm) (B "ctm")) with true | change (same (hname Hrttm) (B "ctm")) with false; change (same (hname Hrttm) (B "rttm")) with true
       | change (same (hname Htrn) (B "ctm")) with false; change (same (hname Htrn) (B "rttm")) with false; change (same (hname Htrn) (B "trn")) with true];
      cbv beta iota; (destruct rest as [|w rest]; [reflexivity|]); cbn [stops] in R; rewrite R; reflexivity.
    + destruct rest as [|w rest]; [reflexivity|]. cbn [stops] in R. unfold hyp_arg.
      change (B "ctm") with (99 :: [116; 109])%N. change (B "rttm") with (114 :: [116; 116; 109])%N. change (B "trn") with (116 :: [114; 110])%N.
      rewrite !dash_not by (assumption || discriminate). rewrite R. cbn [negb]. cbv beta iota. rewrite R. reflexivity.
Qed.
Lemma ref_step f fm rest s : stops rest ->
  ref_arg (f :: opt_word rname fm ++ rest) s = (set_ref (Some {| i_file := f; i_format := rname (or_else fm Rtrn); i_title := [] |}) s, rest).
Proof.
  intros R. destruct fm as [[]|]; try reflexivity. cbn [opt_word app]. destruct rest as [|w rest]; [reflexivity|]. cbn [stops] in R. unfold ref_arg.
  change (B "stm") with (115 :: [116; 109])%N. change (B "rttm") with (114 :: [116; 116; 109])%N. change (B "trn") with (116 :: [114; 110])%N.
  rewrite !dash_not by (assumption || discriminate). reflexivity.
Qed.
Lemma which_step w rest : stops rest -> which_arg (opt_word sname w ++ rest) = (sname (or_else w OnBoth), rest).
Proof.
  intros R. destruct w as [[]|]; try reflexivity. cbn [opt_word app]. destruct rest as [|x rest]; [reflexivity|]. cbn [stops] in R. unfold which_arg.
  change (B "ref") with (114 :: [101; 102])%N. change (B "hyp") with (104 :: [121; 112])%N. change (B "both") with (98 :: [111; 116; 104])%N.
  rewrite !dash_not by (assumption || discriminate). reflexivity.
Qed.
Lemma optional_step w rest s : stops rest -> optional_arg (opt_word sname w ++ rest) s = (sets SOptional (sname (or_else w OnBoth)) s, rest).
Proof.
  intros R. destruct w as [[]|]; try reflexivity. cbn [opt_word app]. destruct rest as [|x rest]; [reflexivity|]. cbn [stops] in R. unfold optional_arg. rewrite R. reflexivity.
Qed.
Lemma valued_step x y v rest s : no_dash v -> b_ (sets y v (setb x true s)) x = true -> valued_arg x y (v :: rest) s = (sets y v (setb x true s), rest).
Proof. intros H E. unfold valued_arg. rewrite (no_dash_false v H). cbn [negb]. rewrite E. reflexivity. Qed.
Lemma loose_step f v rest s : no_dash v -> loose_arg f (v :: rest) s = (f v s, rest).
Proof. intros H. unfold loose_arg. rewrite (no_dash_false v H). reflexivity. Qed.
Lemma threads_step v rest s : no_dash v -> (1 <= atoi v)%Z -> threads_arg (v :: rest) s = (sets SThreads v s, rest).
Proof.
  intros H K. unfold threads_arg. rewrite (no_dash_false v H). cbn [negb]. change (s_ (sets SThreads v s) SThreads) with v.
  replace (atoi v <? 1)%Z with false by (symmetry; apply Z.ltb_ge; exact K). reflexivity.
Qed.
Lemma property_step n v rest s : no_dash n -> no_dash v -> property_arg (n :: v :: rest) s = (set_props (Store_Model.mput (props s) n v) (setb BProperty true s), rest).
Proof. intros H K. unfold property_arg. rewrite (no_dash_false n H), (no_dash_false v K). reflexivity. Qed.
Lemma oname_dash r : dash (oname r) = false. Proof. destruct r; reflexivity. Qed.
Lemma oname_known r : same (oname r) (B "sum") || same (oname r) (B "rsum") || same (oname r) (B "sgml") || same (oname r) (B "stdout") = true.
Proof. destruct r; reflexivity. Qed.
Lemma stop_words j rest s : stops rest -> output_words j rest s = (s, rest).
Proof.
  intros R. revert s. induction j as [|j IH]; intros s; [reflexivity|]. destruct rest as [|w rest]; [reflexivity|]. cbn [stops] in R. cbn [output_words]. rewrite R. cbn [negb].
  destruct (ok s); [apply IH; exact R|reflexivity].
Qed.
Lemma output_words_step r : forall j rest s, length r <= j -> stops rest -> ok s = true -> output_words j (map oname r ++ rest) s = (set_outs (outs s ++ map oname r) s, rest).
Proof.
  induction r as [|x r IH]; intros j rest s L R K.
  - cbn [map app]. rewrite app_nil_r. rewrite stop_words by exact R. destruct s; reflexivity.
  - cbn [length] in L. destruct j as [|j]; [lia|]. cbn [map app output_words]. rewrite K, oname_dash. cbn [negb]. rewrite oname_known.
    rewrite IH; [|lia|exact R|exact K]. cbn [outs set_outs]. rewrite <- app_assoc. destruct s; reflexivity.
Qed.
Lemma output_step r rest s : 1 <= length r <= 4 -> stops rest -> ok s = true -> output_arg (map oname r ++ rest) s = (set_outs (outs s ++ map oname r) s, rest).
Proof.
  intros L R K. unfold output_arg. rewrite output_words_step; [|lia|exact R|exact K]. cbn [outs set_outs].
  destruct r as [|x r]; [cbn in L; lia|]. destruct (outs s); reflexivity.
Qed.
Lemma step_ok l s o rest : inv l s -> usable o -> stops rest ->
  exists a t s', words o = a :: t /\ step a (t ++ rest) s = (s', rest) /\ inv (l ++ [o]) s'.
Proof.
  intros V U R. destruct o as [f fm t|f fm|f w|w|w|w|w v|n v|r]; cbn [words].
  - eexists. eexists. eexists. split; [reflexivity|]. split; [|apply inv_hyp; exact V]. cbn [app]. rewrite <- app_assoc. apply (hyp_step f fm t rest s U R).
  - eexists. eexists. eexists. split; [reflexivity|]. split; [|apply inv_ref; exact V]. apply (ref_step f fm rest s R).
  - eexists. eexists. eexists. split; [reflexivity|]. split; [|apply inv_uem; exact V].
    change (step (B "-uem") ((f :: opt_word sname w) ++ rest) s) with (uem_arg (f :: opt_word sname w ++ rest) s). unfold uem_arg. rewrite which_step by exact R. reflexivity.
  - eexists. eexists. eexists. split; [reflexivity|]. split; [|apply inv_self; exact V].
    change (step (B "-spkrautooverlap") (opt_word sname w ++ rest) s) with (let (x, after) := which_arg (opt_word sname w ++ rest) in (setb BAuto true (sets SAuto x s), after)).
    rewrite which_step by exact R. reflexivity.
  - eexists. eexists. eexists. split; [reflexivity|]. split; [|apply inv_optional; exact V]. apply (optional_step w rest s R).
  - eexists. eexists. eexists. split; [reflexivity|]. split; [|apply (inv_flag l s w); [exact V|reflexivity]]. destruct w; reflexivity.
  - eexists. eexists. exists (set_it w v s). split; [reflexivity|]. split; [|apply inv_set; exact V]. cbn [app].
    destruct w; cbn [usable] in U.
    + exact (valued_step BUtterance SUtterance v rest s U eq_refl).
    + exact (valued_step BPrune SPrune v rest s U eq_refl).
    + exact (valued_step BWord SWord v rest s U eq_refl).
    + exact (valued_step BSpkr SSpkr v rest s U eq_refl).
    + exact (valued_step BMaxOver SMaxOver v rest s U eq_refl).
    + exact (valued_step BMinOver SMinOver v rest s U eq_refl).
    + exact (valued_step BOnly SOnly v rest s U eq_refl).
    + exact (valued_step BMemory SMemory v rest s U eq_refl).
    + exact (valued_step BMaxGb SMaxGb v rest s U eq_refl).
    + exact (valued_step BDiff SDiff v rest s U eq_refl).
    + exact (valued_step BMinDiff SMinDiff v rest s U eq_refl).
    + exact (loose_step (fun v => sets SOutDir v) v rest s U).
    + exact (loose_step (fun v => set_feedback (atoi v)) v rest s U).
    + exact (loose_step (fun v => set_width (atoi v)) v rest s U).
    + exact (threads_step v rest s (proj1 U) (proj2 U)).
  - eexists. eexists. eexists. split; [reflexivity|]. split; [|apply (inv_property l s n v); exact V]. exact (property_step n v rest s (proj1 U) (proj2 U)).
  - eexists. eexists. eexists. split; [reflexivity|]. split; [|apply (inv_output l s r); exact V]. exact (output_step r rest s U R (v_k _ _ V)).
Qed.

(** ** The loop *)
Lemma words_dash o : exists a t, words o = a :: t /\ dash a = true.
Proof. destruct o as [f fm t|f fm|f w|w|w|w|w v|n v|r]; cbn [words app]; eexists; eexists; (split; [reflexivity|]); try reflexivity; destruct w; reflexivity. Qed.
Lemma words_stop l tail : stops tail -> stops (flat_map words l ++ tail).
Proof. intros T. destruct l as [|o l]; [exact T|]. cbn [flat_map]. destruct (words_dash o) as (a & t & E & D). rewrite E. exact D. Qed.
Lemma loop_more l2 : forall l s tail fuel, inv l s -> Forall usable l2 -> stops tail -> length (flat_map words l2 ++ tail) <= fuel ->
  exists s' fuel', inv (l ++ l2) s' /\ loop fuel (flat_map words l2 ++ tail) s = loop fuel' tail s' /\ length tail <= fuel'.
Proof.
  induction l2 as [|o l2 IH]; intros l s tail fuel V U T F.
  - exists s, fuel. rewrite app_nil_r. split; [exact V|]. split; [reflexivity|exact F].
  - inversion U as [|? ? U1 U2]; subst. cbn [flat_map] in *. rewrite <- app_assoc in *.
    destruct (step_ok l s o (flat_map words l2 ++ tail) V U1 (words_stop l2 tail T)) as (a & t & s1 & E & S1 & V1).
    rewrite E in *. cbn [app] in *. cbn [length] in F. destruct fuel as [|fuel]; [lia|]. cbn [loop]. rewrite (v_k _ _ V).
    rewrite S1. rewrite app_length in F. destruct (IH (l ++ [o]) s1 tail fuel V1 U2 T ltac:(lia)) as (s' & f' & V' & E' & F'). exists s', f'. rewrite <- app_assoc in V'. split; [exact V'|]. split; [exact E'|exact F'].
Qed.
