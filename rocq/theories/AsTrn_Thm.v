(** C92: asclite's transcripts. *)
From Coq Require Import String List NArith Arith Bool Ascii Lia Sorted Permutation.
From Verif Require Import Base Store_Model Store_Proofs Segm_Model Segm_Proofs2 Alt_Model Alt_Spec Alt_Proofs Alt_Proofs2 Alt_Thm AsTrn_Model AsTrn_Spec AsTrn_Proofs.
Import ListNotations.
Local Open Scope res_scope.
Local Notation length := List.length.

(** Every file has lines. *)
Theorem C92_lines : forall file, exists ls, file_lines file ls /\ forall ls', file_lines file ls' -> ls' = ls.
Proof.
  intros file. exists (getlines [] file). split; [exact (lines_exist file [] (fun k => k))|]. intros ls' H. symmetry. apply getlines_ok, H.
Qed.
Print Assumptions C92_lines.

Lemma at_key_in m : StronglySorted before (map fst m) -> forall k l, In (k, l) m -> at_key k m = l.
Proof.
  induction m as [|(k', l') m IH]; intros S k l H; [destruct H|]. cbn [map fst] in S. inversion S as [|? ? S1 F]; subst. cbn [at_key]. destruct H as [H|H].
  - injection H as -> ->. rewrite str_eqb_refl. reflexivity.
  - destruct (str_eqb_dec k' k) as [(-> & _)|(_ & ->)]; [|apply IH; assumption]. exfalso. rewrite Forall_forall in F. apply (before_irrefl k), F. change k with (fst (k, l)). apply in_map, H.
Qed.
Lemma split_map st us als : forall m0 m, (forall k l, In (k, l) m0 -> at_key k m = l) -> (forall s, Forall2 (is_for st) (of_speaker s (numbered 0 us als)) (at_key s m)) ->
  Forall2 (fun s speech => Forall2 (is_for st) (of_speaker s (numbered 0 us als)) speech) (map fst m0) (map snd m0).
Proof.
  induction m0 as [|(k, l) m0 IH]; intros m HA HF; [constructor|]. cbn [map fst snd]. constructor; [rewrite <- (HA k l (or_introl eq_refl)); apply HF|]. apply (IH m); [intros; apply HA; right; assumption|exact HF].
Qed.
(** A file of utterances is read as one speech for each speaker, in the order of the speakers' names,
    with the speaker's utterances in the order of the file. *)
Theorem C92_loaded : forall fuel file ls us als,
  file_lines file ls -> describes 0 ls us -> us <> [] -> Forall2 (transcript fuel) us als ->
  exists st set spkrs, load fuel true file = Ok (st, set)
    /\ StronglySorted before spkrs /\ (forall s, In s spkrs <-> exists q, In q us /\ q_spkr q = s)
    /\ Forall2 (fun s speech => Forall2 (is_for st) (of_speaker s (numbered 0 us als)) speech) spkrs set.
Proof.
  intros fuel file ls us als FL D NE FA. unfold load. rewrite (getlines_ok file ls FL).
  destruct (load_from_ok fuel ls 0 us D als 0 empty_state [] good_empty FA ltac:(constructor)) as (st & m & E & G & _ & SM & KEYS & NEW). rewrite E. cbn [rbind].
  assert (NM : m <> []). { intros ->. destruct us as [|q us]; [congruence|]. destruct (proj2 (KEYS (q_spkr q))). right. exists q. split; [left|]; reflexivity. }
  exists st, (map snd m), (map fst m). split; [destruct m; [congruence|reflexivity]|]. split; [exact SM|]. split.
  - intros s. rewrite KEYS. cbn. split; [intros [[]|H]; exact H|auto].
  - apply (split_map st us als m m); [apply at_key_in, SM|]. intros s. destruct (NEW s) as (new & EN & FN). cbn in EN. rewrite EN. exact FN.
Qed.
Print Assumptions C92_loaded.

(** A file without utterances ends the program. *)
Theorem C92_no_data : forall fuel spu file ls n, file_lines file ls -> describes n ls [] -> load fuel spu file = Exit.
Proof.
  intros fuel spu file ls n FL D. unfold load. rewrite (getlines_ok file ls FL).
  assert (K : forall m k st, load_from fuel spu m k ls st [] = Ok (st, [])).
  { clear FL. remember (@nil utt) as us eqn:EU. induction D as [n|n l ls us HC D IH|n l w u s ls us HC UT SP D IH]; intros m k st; [reflexivity| |discriminate]. cbn [load_from]. replace (is_comment l) with true by (destruct l as [|c l]; [discriminate|cbn in *; rewrite HC; reflexivity]). apply IH, EU. }
  rewrite K. reflexivity.
Qed.
Print Assumptions C92_no_data.

(** For the first system, every id of the references gives one group, in the order of the ids: the
    first reference and the first hypothesis with the id. *)
Theorem C92_pairs : forall addr refs hyps st, t_refs st <> Some addr -> concat refs <> [] ->
  (forall s, In s (concat refs) -> u_id s <> [] /\ exists h, In h (concat hyps) /\ u_id h = u_id s) ->
  exists ids gs st', pair_up addr refs hyps st = Ok (gs, st')
    /\ StronglySorted before ids /\ (forall id, In id ids <-> exists s, In s (concat refs) /\ u_id s = id) /\ Forall2 (paired refs hyps) ids gs.
Proof. intros addr refs hyps st NA NE HS. destruct (pair_up_ok addr refs hyps st NA NE HS) as (ids & gs & E & H). exists ids, gs. eexists. split; [exact E|exact H]. Qed.
Print Assumptions C92_pairs.

Lemma first_unique id l x y : first_with id l x -> In y l -> u_id y = id -> NoDup (map u_id l) -> x = y.
Proof.
  intros (a & b & -> & E & F) Hy EY ND. rewrite map_app in ND. cbn [map] in ND. apply NoDup_remove_2 in ND. apply in_app_iff in Hy. destruct Hy as [Hy|[Hy|Hy]]; [rewrite Forall_forall in F; destruct (F y Hy EY)|exact Hy|].
  exfalso. apply ND. apply in_app_iff. right. rewrite E, <- EY. apply in_map, Hy.
Qed.
Lemma sorted_nodup l : StronglySorted before l -> NoDup l.
Proof. induction 1 as [|x l S IH F]; constructor; [|exact IH]. intros K. rewrite Forall_forall in F. exact (before_irrefl x (F x K)). Qed.
(** If no id is used twice, every reference utterance is scored once, against the hypothesis with its id. *)
Theorem C92_every_utterance_once : forall addr refs hyps st, t_refs st <> Some addr -> concat refs <> [] ->
  NoDup (map u_id (concat refs)) -> NoDup (map u_id (concat hyps)) ->
  (forall s, In s (concat refs) -> u_id s <> [] /\ exists h, In h (concat hyps) /\ u_id h = u_id s) ->
  exists ps st', pair_up addr refs hyps st = Ok (map (fun p => ([fst p], [snd p])) ps, st')
    /\ Permutation (map fst ps) (concat refs) /\ Forall (fun p => In (snd p) (concat hyps) /\ u_id (snd p) = u_id (fst p)) ps.
Proof.
  intros addr refs hyps st NA NE NR NH HS. destruct (C92_pairs addr refs hyps st NA NE HS) as (ids & gs & st' & E & SO & IN & FP).
  assert (P : exists ps, gs = map (fun p => ([fst p], [snd p])) ps /\ Forall2 (fun id p => first_with id (concat refs) (fst p) /\ first_with id (concat hyps) (snd p)) ids ps).
  { clear - FP. induction FP as [|id g ids gs (r & h & -> & A & B) FP (ps & -> & F)]; [exists []; split; [reflexivity|constructor]|]. exists ((r, h) :: ps). split; [reflexivity|]. constructor; auto. }
  destruct P as (ps & -> & F2). exists ps, st'. split; [exact E|].
  assert (EI : map (fun p => u_id (fst p)) ps = ids). { clear - F2. induction F2 as [|id p ids ps ((a & b & _ & E & _) & _) F2 IH]; [reflexivity|]. cbn. rewrite E, IH. reflexivity. }
  split.
  - apply NoDup_Permutation.
    + apply (NoDup_map_inv u_id). rewrite map_map, EI. apply sorted_nodup, SO.
    + apply (NoDup_map_inv u_id), NR.
    + intros x. split.
      * intros H. apply in_map_iff in H. destruct H as (p & <- & Hp). assert (Q : exists id, first_with id (concat refs) (fst p)). { clear - F2 Hp. induction F2 as [|id q ids ps (A & _) F2 IH]; [destruct Hp|]. destruct Hp as [->|Hp]; eauto. }
        destruct Q as (id & a & b & -> & _). apply in_app_iff. right. left. reflexivity.
      * intros H. assert (Hi : In (u_id x) ids) by (apply IN; eauto). clear - F2 Hi H NR. induction F2 as [|id q ids ps (A & _) F2 IH]; [destruct Hi|]. destruct Hi as [->|Hi]; [|right; auto]. left. cbn. exact (first_unique _ _ _ _ A H eq_refl NR).
  - clear - F2. induction F2 as [|id p ids ps ((a & b & _ & E & _) & a' & b' & EC & E' & _) F2 IH]; constructor; [|exact IH]. split; [rewrite EC; apply in_app_iff; right; left; reflexivity|congruence].
Qed.
Print Assumptions C92_every_utterance_once.

(** ** What does not hold *)
Lemma find_set_ends x set : find_set x set <> Exit /\ find_set x set <> NoFuel.
Proof. induction set as [|sp set IH]; cbn [find_set]; [split; discriminate|]. destruct (find _ sp); [split; discriminate|exact IH]. Qed.
(** A reference utterance that the hypothesis lacks makes the program look past the last speech. *)
Theorem C92_missing_hypothesis_refuted : forall addr refs hyps st s, t_refs st <> Some addr -> In s (concat refs) -> hyps <> [] ->
  (forall r, In r (concat refs) -> u_id r <> []) -> (forall h, In h (concat hyps) -> u_id h <> u_id s) -> pair_up addr refs hyps st = Undef.
Proof.
  intros addr refs hyps st s NA HS NH NI MI. unfold pair_up, reset. replace (match t_refs st with Some a => Nat.eqb a addr | None => false end) with false
    by (destruct (t_refs st) as [a|]; [symmetry; apply Nat.eqb_neq; congruence|reflexivity]). cbv zeta.
  destruct (ids_ok (concat refs) [] ltac:(constructor)) as (_ & IN). cbv zeta in IN.
  destruct (fold_left (fun l s => set_insert (u_id s) l) (concat refs) []) as [|x l]; [reflexivity|]. cbn [rbind t_list].
  assert (IN' : forall id, In id (x :: l) <-> exists s, In s (concat refs) /\ u_id s = id) by (intros id; rewrite IN; split; [intros [[]|H]; exact H|auto]).
  assert (K : forall l x fuel, length l + 2 <= fuel -> (forall id, In id (x :: l) -> exists s, In s (concat refs) /\ u_id s = id) -> In (u_id s) (x :: l) ->
    groups fuel refs hyps {| t_refs := Some addr; t_list := l; t_cur := x |} = Undef).
  { clear x l IN IN'. induction l as [|y l IH]; intros x fuel LF HI Hs; (destruct fuel as [|fuel]; [cbn in LF; lia|]); cbn [groups t_cur].
    all: destruct (HI x (or_introl eq_refl)) as (r & Hr & Er); destruct x as [|c cs] eqn:EX; [destruct (NI r Hr Er)|]; rewrite <- EX in *.
    all: destruct (find_set_ok x refs (ex_intro _ r (conj Hr Er))) as (r' & ER & _); unfold next, look; cbn [t_cur t_list]; rewrite ER; (destruct refs as [|sp refs']; [destruct HS|]); cbn [rbind]; (destruct hyps as [|hp hyps']; [congruence|]).
    - destruct Hs as [->|[]]. rewrite find_set_missing by exact MI. reflexivity.
    - destruct (list_eq_dec N.eq_dec x (u_id s)) as [->|NE]; [rewrite find_set_missing by exact MI; reflexivity|]. destruct Hs as [->|Hs]; [congruence|].
      destruct (find_set x (hp :: hyps')) as [h| | |] eqn:EH; cbn [rbind]; [|destruct (find_set_ends x (hp :: hyps')) as (K & _); congruence|reflexivity|destruct (find_set_ends x (hp :: hyps')) as (_ & K); congruence].
      rewrite IH; [reflexivity|cbn [length] in LF; lia|intros id Hid; apply HI; right; exact Hid|exact Hs]. }
  apply K; [lia|intros id Hid; apply IN', Hid|apply IN'; eauto].
Qed.
Print Assumptions C92_missing_hypothesis_refuted.
(** The second system has no groups: the first element of the empty list of ids is taken. *)
Theorem C92_second_system_refuted : forall addr refs hyps hyps' st gs st', t_refs st <> Some addr -> concat refs <> [] ->
  (forall s, In s (concat refs) -> u_id s <> [] /\ exists h, In h (concat hyps) /\ u_id h = u_id s) ->
  pair_up addr refs hyps st = Ok (gs, st') -> pair_up addr refs hyps' st' = Undef.
Proof.
  intros addr refs hyps hyps' st gs st' NA NE HS E. destruct (pair_up_ok addr refs hyps st NA NE HS) as (ids & gs' & E' & _). rewrite E in E'. injection E' as _ ->.
  unfold pair_up, reset. cbn [t_refs t_list]. rewrite Nat.eqb_refl. reflexivity.
Qed.
Print Assumptions C92_second_system_refuted.

Definition ids (r : res (pstate * list (list useg))) : res (list (list (str * str))) :=
  let* (_, set) := r in Ok (map (map (fun s => (u_id s, u_spkr s))) set).
Definition file_of (ls : list string) : str := concat (map (fun l => bytes l ++ [10%N]) ls).
Definition paired_ids (ref hyp : list string) : res (list (list (str * nat) * list (str * nat))) :=
  let* (_, R) := load 20 true (file_of ref) in
  let* (_, H) := load 20 true (file_of hyp) in
  let* (gs, _) := pair_up 0 R H fresh_segmentor in
  Ok (map (fun g => (map (fun s => (u_id s, u_line s)) (fst g), map (fun s => (u_id s, u_line s)) (snd g))) gs).
(** The ids with the words that can come first. *)
Definition first_words (r : res (pstate * list (list useg))) : res (list (list (str * list string))) :=
  let* (st, set) := r in Ok (map (map (fun s => (u_id s, map (text_of st) (vs_start (u_graph s))))) set).
(** A line without an id is its own id and its own words, an empty line an utterance, and a single semicolon begins a comment. *)
Theorem C92_odd_lines_refuted :
  ids (load 20 true (file_of ["hello world"; ""; "; a (s-1)"]%string)) = Ok [[(bytes "()", [])]; [(bytes "(hello world)", bytes "hello world")]]
  /\ ids (load 20 true (file_of ["a (b) c (s-1"]%string)) = Ok [[(bytes "(s-1)", bytes "s")]]
  /\ first_words (load 20 true (file_of ["hello world"]%string)) = Ok [[(bytes "(hello world)", ["hello"%string])]].
Proof. repeat split; vm_compute; reflexivity. Qed.
Print Assumptions C92_odd_lines_refuted.
(** Of utterances with the same id only the first is scored, and a hypothesis that has no reference is
    not scored at all. *)
Theorem C92_lost_utterances_refuted :
  paired_ids ["a (s-1)"; "b (s-1)"]%string ["a (s-1)"; "b (s-1)"; "c (s-2)"]%string = Ok [([(bytes "(s-1)", 0)], [(bytes "(s-1)", 0)])].
Proof. vm_compute. reflexivity. Qed.
Print Assumptions C92_lost_utterances_refuted.

(** * The hypotheses can be met *)
Definition afile : str := file_of [";; comment"; "(uh) hello { world / word } (mary_b-001)"; "yes (al-7)"; "bye (mary_b-002)"]%string.
Example afile_described : exists ls us, file_lines afile ls /\ describes 0 ls us /\ map (fun q => (q_line q, q_spkr q, q_uid q)) us =
  [(1, bytes "mary_b", bytes "mary_b-001"); (2, bytes "al", bytes "al-7"); (3, bytes "mary_b", bytes "mary_b-002")].
Proof.
  assert (SP : forall s c t, mark c -> Forall (fun c => ~ mark c) t -> speaker (s ++ c :: t) s) by (intros; left; eauto).
  exists (map bytes [";; comment"; "(uh) hello { world / word } (mary_b-001)"; "yes (al-7)"; "bye (mary_b-002)"]%string). eexists. split; [|split].
  - split; [|left; reflexivity]. repeat (constructor; [vm_compute; intros K; repeat (destruct K as [K|K]; [discriminate|]); exact K|]). constructor.
  - apply d_comment; [reflexivity|].
    apply (d_line 1 _ (bytes "(uh) hello { world / word } ") (bytes "mary_b-001") (bytes "mary_b")); [discriminate|exists []; split; [reflexivity|]; split; repeat (constructor; [split; discriminate|]); constructor| |].
    { apply (SP (bytes "mary_b") 45%N (bytes "001")); [right; reflexivity|]. repeat (constructor; [intros [K|K]; discriminate|]). constructor. }
    apply (d_line 2 _ (bytes "yes ") (bytes "al-7") (bytes "al")); [discriminate|exists []; split; [reflexivity|]; split; repeat (constructor; [split; discriminate|]); constructor| |].
    { apply (SP (bytes "al") 45%N (bytes "7")); [right; reflexivity|]. repeat (constructor; [intros [K|K]; discriminate|]). constructor. }
    apply (d_line 3 _ (bytes "bye ") (bytes "mary_b-002") (bytes "mary_b")); [discriminate|exists []; split; [reflexivity|]; split; repeat (constructor; [split; discriminate|]); constructor| |].
    { apply (SP (bytes "mary_b") 45%N (bytes "002")); [right; reflexivity|]. repeat (constructor; [intros [K|K]; discriminate|]). constructor. }
    constructor.
  - reflexivity.
Qed.
Example afile_transcript : transcript 20 {| q_line := 1; q_words := bytes "(uh) hello { world / word } "; q_uid := bytes "mary_b-001"; q_spkr := bytes "mary_b" |}
  (AOne (SCons (IWord "(uh)") (SCons (IWord "hello") (SCons (IGroup (AMore (SCons (IWord "world") SNil) (AOne (SCons (IWord "word") SNil)))) SNil)))).
Proof.
  split; [vm_compute; reflexivity|]. split; [|cbn; lia]. cbn. unfold plain, solid. cbn.
  assert (H : forall w, ~ says_seq (SCons (IWord w) SNil) []). { intros w H. inversion H as [|? ? ? ? H1 H2 H3 H4]; subst. inversion H1; subst. discriminate. }
  repeat split; try discriminate; auto.
Qed.
Example afile_loaded : ids (load 20 true afile) = Ok [[(bytes "(al-7)", bytes "al")]; [(bytes "(mary_b-001)", bytes "mary_b"); (bytes "(mary_b-002)", bytes "mary_b")]].
Proof. vm_compute. reflexivity. Qed.
Example afile_paired : paired_ids ["x (b-1)"; "y (a-2)"]%string ["y y (a-2)"; "x x (b-1)"]%string =
  Ok [([(bytes "(a-2)", 1)], [(bytes "(a-2)", 0)]); ([(bytes "(b-1)", 0)], [(bytes "(b-1)", 1)])].
Proof. vm_compute. reflexivity. Qed.
Example missing_met : paired_ids ["a (s-1)"; "b (t-1)"]%string ["a (s-1)"; "c (s-2)"]%string = Undef.
Proof. vm_compute. reflexivity. Qed.
Example second_met : (let* (_, R) := load 20 true (file_of ["x (b-1)"; "y (a-2)"]%string) in
  let* (_, st) := pair_up 0 R R fresh_segmentor in pair_up 0 R R st) = Undef.
Proof. vm_compute. reflexivity. Qed.
Example no_data_met : load 20 true (file_of [";; a (s-1)"; ";"]%string) = Exit.
Proof. vm_compute. reflexivity. Qed.
