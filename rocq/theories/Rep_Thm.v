From Coq Require Import List ZArith NArith Arith Bool String Lia Permutation.
From Verif Require Import Base Store_Model Store_Proofs Store_Proofs2 Token_Model Rep_Model Rep_Spec Rep_Proofs Rep_Proofs2 Rep_Proofs3.
Import ListNotations.

(** C60: after any history of alignments, the record of every system holds exactly the word
    pairs of its alignments, each once, in the segment of its reference word, and an inserted
    word in its home segment; the program stops only if an inserted word has no home. *)
Theorem C60_record : forall w js, jobs_ok w js ->
  match run_jobs w js [] with
  | Ok al => forall key, key <> bytes "REFERENCE" ->
      exists ps, Forall2 (fun j p => placements w (j_segs j) [] (j_pairs j) = Some p) (jobs_for key js) ps /\
        Permutation (entries key al) (List.concat ps)
  | Exit => exists j, In j js /\ placements w (j_segs j) [] (j_pairs j) = None
  | _ => False
  end.
Proof.
  intros w js J. pose proof (record_ok w js J) as H. destruct (run_jobs w js []); try exact H. exact (proj2 H).
Qed.
Print Assumptions C60_record.

(** No word pair is lost, and a reference word is in its own segment. *)
Theorem C60_words : forall w js al key, jobs_ok w js -> key <> bytes "REFERENCE" -> run_jobs w js [] = Ok al ->
  Permutation (map (fun e => (n_ref e, n_hyp e)) (entries key al)) (flat_map j_pairs (jobs_for key js)) /\
  forall e r, In e (entries key al) -> n_ref e = Some r -> n_seg e = w_seg w r.
Proof.
  intros w js al key J N R. pose proof (record_ok w js J) as H. rewrite R in H. destruct H as [_ H].
  destruct (H key N) as (ps & F & P). pose proof (jobs_entries w _ _ F) as E. split.
  - rewrite <- (entries_pairs w _ _ E). apply Permutation_map. exact P.
  - intros e r I Q. apply (Permutation_in _ P) in I. clear - E I Q.
    induction E as [|x y l p (A & B & C & D) E IH]; [contradiction|]. destruct I as [->|I]; [|exact (IH I)].
    apply D. congruence.
Qed.
Print Assumptions C60_words.

(** C18: when every row has an entry of every scored system, scoring gives every entry its
    result and changes nothing else. *)
Theorem C18_scored : forall w o systems al, systems <> [] -> ~ In (bytes "REFERENCE") systems ->
  (forall k, In k systems -> complete k al /\ Forall (fun e => (n_ref e, n_hyp e) <> (None, None)) (entries k al)) ->
  exists al', score_align w o systems al = Ok al' /\ map fst al' = map fst al /\
    (forall k, In k systems -> Forall2 (scored w o) (entries k al) (entries k al')) /\
    (forall k, ~ In k systems -> k <> bytes "REFERENCE" -> entries k al' = entries k al).
Proof.
  intros w o systems al NE NR H. destruct (score_align_ok w o systems al NR (ready_spec systems al H NE)) as (al' & E & M & A & B).
  exists al'. split; [exact E|]. split; [exact M|]. split; [intros k K; apply A; exact K|exact B].
Qed.
Print Assumptions C18_scored.

(** Every pair has exactly one result. *)
Theorem C18_one_class : forall w o ref hyp, (ref, hyp) <> (None, None) ->
  exists v, result_ok w o ref hyp v /\ forall v', result_ok w o ref hyp v' -> v' = v.
Proof.
  intros w o ref hyp N. destruct (eval_ok w o ref hyp N) as (v & _ & R). exists v. split; [exact R|].
  intros v' R'. unfold result_ok in *. destruct ref, hyp; try contradiction.
  - destruct R as [(-> & E & S)|[(-> & E & S)|(-> & E)]], R' as [(-> & E' & S')|[(-> & E' & S')|(-> & E')]]; try reflexivity; try contradiction; congruence.
  - destruct R as [(-> & E)|(-> & E)], R' as [(-> & E')|(-> & E')]; try reflexivity; contradiction.
  - destruct R as [(-> & E)|(-> & E)], R' as [(-> & E')|(-> & E')]; try reflexivity; contradiction.
Qed.
Print Assumptions C18_one_class.

(** Small worlds: words 0-9 are in segment 100 (speaker a), 10-19 in segment 101 (speaker b),
    the others in segment 200; words are equivalent if equal modulo 10. *)
Definition small : world := {|
  w_seg := fun x => if x <? 10 then 100 else if x <? 20 then 101 else 200;
  w_time := fun x => if x =? 29 then {| to_start := 15; to_end := 16 |} else {| to_start := 3; to_end := 4 |};
  w_optional := fun x => x =? 21;
  w_equiv := fun x y => (x mod 10) =? (y mod 10);
  w_stime := fun s => if s =? 100 then {| to_start := 0; to_end := 10 |} else {| to_start := 11; to_end := 20 |};
  w_src := fun _ => bytes "f"; w_ch := fun _ => bytes "1";
  w_spk := fun s => if s =? 100 then bytes "a" else bytes "b" |}.
Definition job1 (key : string) (l : list pair) : job :=
  {| j_hri := 1; j_segs := [100; 101]; j_key := bytes key; j_cols := map (fun p => [snd p; fst p]) l |}.
Definition plain (s : string) : scoring := {| s_optionally := bytes s; s_speaker := false; s_map := [] |}.

(** "both" does not forgive optional hypothesis words. *)
Theorem C18_both_refuted : ~ forall w o h v, s_optionally o = bytes "both" -> w_optional w h = true ->
  score_eval w o None (Some h) = Ok v -> v = RCorrect.
Proof. intro H. specialize (H small (plain "both") 21 RIns eq_refl eq_refl eq_refl). discriminate. Qed.
Print Assumptions C18_both_refuted.

(** With two systems, a word inserted by one of them makes the scorer use a null pointer. *)
Theorem C18_two_systems_refuted : ~ forall w o js al, jobs_ok w js -> run_jobs w js [] = Ok al ->
  exists al', score_align w o (map j_key js) al = Ok al'.
Proof.
  intro H.
  assert (J : jobs_ok small [job1 "A" [(Some 1, Some 21); (None, Some 22)]; job1 "B" [(Some 1, Some 21)]]).
  { split.
    + repeat (apply Forall_cons || apply Forall_nil); (split; [discriminate|]; split; [repeat (apply Forall_cons || apply Forall_nil); discriminate|]);
        (split; [repeat (apply Forall_cons || apply Forall_nil); unfold ordered; cbn; lia|]); intros h I; cbn in I;
        repeat destruct I as [I|I]; try contradiction; try discriminate; injection I as <-; unfold ordered; cbn; lia.
    + intro key. unfold jobs_for. cbn [filter job1 j_key]. destruct (str_eqb (bytes "A") key) eqn:A, (str_eqb (bytes "B") key) eqn:B;
        cbn; repeat constructor; cbn; try tauto.
      apply str_eqb_spec in A. apply str_eqb_spec in B. rewrite <- A in B. discriminate. }
  destruct (H small (plain "none") _ _ J eq_refl) as (al' & E). vm_compute in E. discriminate.
Qed.
Print Assumptions C18_two_systems_refuted.

(** C19: the report of a system adds to the counters of every speaker the numbers of its word
    pairs with each result in that speaker's segments, and their segments. *)
Theorem C19_counters : forall w key al m, complete key al -> Forall final (entries key al) ->
  exists m', count_align w key al m = Ok (m', true) /\
    (forall spk, counted w key spk al (dget m spk) (dget m' spk)) /\
    (forall spk, massoc m' spk <> None <-> massoc m spk <> None \/ exists s, In s (map fst al) /\ w_spk w s = spk).
Proof.
  intros w key al m C G. destruct (count_align_ok w key al m C G) as (m' & E & A & B & _). exists m'. auto.
Qed.
Print Assumptions C19_counters.

(** The totals are the numbers over all speakers. *)
Theorem C19_totals : forall w key al, complete key al -> Forall final (entries key al) ->
  exists m, count_align w key al [] = Ok (m, true) /\
    total d_corr m = count (with_result RCorrect) (entries key al) /\
    total d_sub m = count (with_result RSubst) (entries key al) /\
    total d_spk m = count (with_result RSpkSub) (entries key al) /\
    total d_del m = count (with_result RDel) (entries key al) /\
    total d_ins m = count (with_result RIns) (entries key al) /\
    total d_segs m = List.length al /\
    total d_refs m = total d_corr m + total d_sub m + total d_spk m + total d_del m /\
    total d_errors m = total d_sub m + total d_ins m + total d_del m + total d_spk m.
Proof.
  intros w key al C G. destruct (count_align_ok w key al [] C G) as (m & E & _ & _ & T1 & T2 & T3 & T4 & T5 & T6 & T7).
  exists m. split; [exact E|]. cbn in T1, T2, T3, T4, T5, T6. change (total d_refs []) with 0 in T7. cbn [Nat.add] in T7.
  rewrite T1, T2, T3, T4, T5, T6. do 6 (split; [reflexivity|]). split; [exact T7|].
  rewrite <- T2, <- T3, <- T4, <- T5. clear. induction m as [|[k d] m IH]; [reflexivity|]. unfold total in *. cbn [fold_right snd]. unfold d_errors at 1. lia.
Qed.
Print Assumptions C19_totals.

(** From alignments to counters, for one system: alignment, scoring and counting together.
    The reference words counted for a speaker are the speaker's aligned reference words, and
    every hypothesis word is counted once. *)
Theorem C19_end_to_end : forall w o key js al, jobs_ok w js -> Forall (fun j => j_key j = key) js -> key <> bytes "REFERENCE" ->
  run_jobs w js [] = Ok al ->
  exists al' m, score_align w o [key] al = Ok al' /\ count_align w key al' [] = Ok (m, true) /\
    Forall2 (scored w o) (entries key al) (entries key al') /\
    (forall spk, counted w key spk al' no_datas (dget m spk)) /\
    (~ forgives_hyp o -> forall spk, d_refs (dget m spk) = words_of w spk (refs_in (flat_map j_pairs js))) /\
    (~ forgives_ref o -> total d_corr m + total d_sub m + total d_spk m + total d_ins m = List.length (hyps_in (flat_map j_pairs js))).
Proof.
  intros w o key js al J K N R. destruct (end_to_end w o key js al J K N R) as (al' & m & A & B & C & _ & D & E & F).
  exists al', m. auto 7.
Qed.
Print Assumptions C19_end_to_end.

(** The counters are never cleared: the report of the i-th system shows the sums over the first
    i systems. *)
Theorem C19_reports : forall w al ks, Forall (fun k => complete k al /\ Forall final (entries k al)) ks ->
  exists ms, reports w ks al [] = Ok ms /\ List.length ms = List.length ks /\
    forall i m, nth_error ms i = Some m -> forall spk,
      let sum v := fold_right (fun k n => count (said w spk v) (entries k al) + n) 0 (firstn (S i) ks) in
      d_corr (dget m spk) = sum RCorrect /\ d_sub (dget m spk) = sum RSubst /\ d_spk (dget m spk) = sum RSpkSub /\
      d_del (dget m spk) = sum RDel /\ d_ins (dget m spk) = sum RIns /\
      d_segs (dget m spk) = S i * count (spoken w spk) al.
Proof. intros w al ks F. exact (reports_ok w al ks [] F). Qed.
Print Assumptions C19_reports.

Definition two_systems : align :=
  [(100, {| as_rows := [[(bytes "REFERENCE", Some {| ev_token := Some 1; ev_result := RReference |});
                         (bytes "A", Some {| ev_token := None; ev_result := RDel |});
                         (bytes "B", Some {| ev_token := Some 21; ev_result := RCorrect |})]]; as_index := [(1, 0)] |})].

(** So the report of the second system is not about that system. *)
Theorem C19_second_system_refuted : ~ forall w al k1 k2 m1 m2, complete k1 al -> complete k2 al ->
  Forall final (entries k1 al) -> Forall final (entries k2 al) -> reports w [k1; k2] al [] = Ok [m1; m2] ->
  forall spk, d_del (dget m2 spk) = count (said w spk RDel) (entries k2 al).
Proof.
  intro H.
  assert (C : forall k, k = bytes "A" \/ k = bytes "B" -> complete k two_systems).
  { intros k K s a t [I|[]] I2. injection I as <- <-. destruct I2 as [<-|[]]. destruct K; subst; vm_compute; discriminate. }
  pose proof (fun m1 m2 => H small two_systems (bytes "A") (bytes "B") m1 m2 (C _ (or_introl eq_refl)) (C _ (or_intror eq_refl))) as G.
  assert (FA : Forall final (entries (bytes "A") two_systems)) by (vm_compute; constructor; [exact I|constructor]).
  assert (FB : Forall final (entries (bytes "B") two_systems)) by (vm_compute; constructor; [exact I|constructor]).
  specialize (G _ _ FA FB eq_refl (bytes "a")). vm_compute in G. discriminate.
Qed.
Print Assumptions C19_second_system_refuted.

(** With "hyp", forgiven inserted words are counted as reference words. *)
Theorem C19_reference_words_refuted : ~ forall w o key js al al' m, jobs_ok w js -> Forall (fun j => j_key j = key) js ->
  run_jobs w js [] = Ok al -> score_align w o [key] al = Ok al' -> count_align w key al' [] = Ok (m, true) ->
  forall spk, d_refs (dget m spk) = words_of w spk (refs_in (flat_map j_pairs js)).
Proof.
  intro H. specialize (H small (plain "hyp") (bytes "A") [job1 "A" [(Some 1, Some 22); (None, Some 21)]]).
  enough (X : jobs_ok small [job1 "A" [(Some 1, Some 22); (None, Some 21)]]).
  { assert (Y : Forall (fun j => j_key j = bytes "A") [job1 "A" [(Some 1, Some 22); (None, Some 21)]]) by (repeat constructor).
    specialize (H _ _ _ X Y eq_refl eq_refl eq_refl (bytes "a")). vm_compute in H. discriminate. }
  split.
  - repeat (apply Forall_cons || apply Forall_nil). split; [discriminate|]. split; [repeat (apply Forall_cons || apply Forall_nil); discriminate|].
    split; [repeat (apply Forall_cons || apply Forall_nil); unfold ordered; cbn; lia|]. intros h I. cbn in I.
    repeat destruct I as [I|I]; try contradiction; try discriminate. injection I as <-. unfold ordered. cbn. lia.
  - intro key. unfold jobs_for. cbn [filter]. destruct (str_eqb _ key); cbn; repeat constructor; cbn; tauto.
Qed.
Print Assumptions C19_reference_words_refuted.

(** A run: a correct word, a substitution, a deletion, an insertion of a word overlapping the
    second segment only, for one system. *)
Definition run1 : list job := [job1 "A" [(Some 1, Some 21); (None, Some 29); (Some 2, Some 23); (Some 11, None)]].
Example run1_ok : jobs_ok small run1.
Proof.
  split.
  - repeat (apply Forall_cons || apply Forall_nil). split; [discriminate|]. split; [repeat (apply Forall_cons || apply Forall_nil); discriminate|].
    split; [repeat (apply Forall_cons || apply Forall_nil); unfold ordered; cbn; lia|]. intros h I. cbn in I.
    repeat destruct I as [I|I]; try contradiction; try discriminate. injection I as <-. unfold ordered. cbn. lia.
  - intro key. unfold jobs_for. cbn [filter run1]. destruct (str_eqb _ key); cbn; repeat constructor; cbn; intuition discriminate.
Qed.
Example run1_result : exists al al' m, run_jobs small run1 [] = Ok al /\
  entries (bytes "A") al = [{| n_seg := 100; n_ref := Some 1; n_hyp := Some 21; n_res := RUnavailable |};
    {| n_seg := 100; n_ref := Some 2; n_hyp := Some 23; n_res := RUnavailable |};
    {| n_seg := 101; n_ref := None; n_hyp := Some 29; n_res := RUnavailable |};
    {| n_seg := 101; n_ref := Some 11; n_hyp := None; n_res := RUnavailable |}] /\
  score_align small (plain "none") [bytes "A"] al = Ok al' /\ count_align small (bytes "A") al' [] = Ok (m, true) /\
  map n_res (entries (bytes "A") al') = [RCorrect; RSubst; RIns; RDel] /\
  map (fun e => d_errors (snd e)) m = [1; 2].
Proof. do 3 eexists. vm_compute. repeat split. Qed.
Example C18_hypotheses : exists al, run_jobs small run1 [] = Ok al /\ complete (bytes "A") al /\
  Forall (fun e => (n_ref e, n_hyp e) <> (None, None)) (entries (bytes "A") al).
Proof.
  eexists. split; [vm_compute; reflexivity|]. split.
  - intros s a t I1 I2. cbn in I1. repeat destruct I1 as [I1|I1]; try contradiction; injection I1 as <- <-;
      cbn in I2; repeat destruct I2 as [I2|I2]; try contradiction; subst; vm_compute; discriminate.
  - vm_compute. repeat (apply Forall_cons || apply Forall_nil); discriminate.
Qed.
Example C19_hypotheses : complete (bytes "B") two_systems /\ Forall final (entries (bytes "B") two_systems).
Proof.
  split; [|vm_compute; constructor; [exact I|constructor]].
  intros s a t [J|[]] I2. injection J as <- <-. destruct I2 as [<-|[]]. vm_compute. discriminate.
Qed.
