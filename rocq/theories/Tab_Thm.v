(** The tables of asclite by speaker: counts, percentages, sums and statistics. *)
From Coq Require Import String List ZArith NArith Arith Bool QArith Lia Lqa Permutation Sorted.
From Verif Require Import Base Store_Model Sgml_Model Stats_Model Stats_Spec Pad_Model Rep_Model Rep_Spec Store_Proofs Tab_Model Tab_Spec Tab_Proofs1 Tab_Proofs2 Tab_Proofs3 Tab_Proofs4 Tab_Proofs5 Tab_Proofs6.
Import ListNotations.
Local Open Scope res_scope.
Local Open Scope nat_scope.
Local Notation length := List.length.

(** A table is always made.  Its lines have the same length, two lines for a speaker and twelve others; four lines of
    notes follow if there is a speaker without reference words. *)
Theorem C114_shape : forall raw inc junk m nce tnce systm, Forall (fun e => 1 <= d_segs (snd e)) m ->
  exists body notes width, table raw inc junk m nce tnce systm = Ok (body ++ notes)
    /\ Forall (fun l => length l = width) body /\ length body = 12 + 2 * length m
    /\ (no_words m -> length notes = 4) /\ (~ no_words m -> notes = []).
Proof.
  intros raw inc junk m nce tnce systm SG. destruct (table_made raw inc junk m nce tnce systm SG) as (p & E & M & W & N7).
  pose proof (full_low inc (p_w p) W N7) as FL. set (f := full inc (p_w p)) in *.
  exists ([p_top p; ruler "." "-" f; bytes "|" ++ p_sys p ++ bytes "|"; ruler "|" "-" f; p_titles p] ++ p_lines p
     ++ [ruler "|" "=" f; p_sums p; ruler "|" "=" f; p_means p; p_sds p; p_medians p; ruler "'" "-" f]), (notes (starred (ds_of m))), (Z.to_nat f).
  destruct (speaker_lines_ok raw inc junk (p_w p) (starred (ds_of m)) nce W (by_name m)) as (ls & EL & LL & _ & FS). pose proof (m_lines _ _ _ _ _ _ _ M) as ML. assert (ELS : Ok ls = Ok (p_lines p)) by exact (eq_trans (eq_sym EL) ML). injection ELS as ->.
  assert (LN : forall just name segs refs vals add serr nc l, In just ["left"; "middle"]%string -> length vals = (if inc then 6 else 5) -> line (p_w p) just name segs refs vals add serr nc = Ok l -> Z.of_nat (length l) = f).
  { intros just name segs refs vals add serr nc l J LV H. destruct (line_ok inc (p_w p) just name segs refs vals add [] serr nc W ltac:(cbn in J |- *; tauto) LV) as (l' & E' & L' & _). assert (X : Ok l = Ok l') by exact (eq_trans (eq_sym H) E'). injection X as ->. exact L'. }
  pose proof (cols_length _ _ _ _ _ _ _ M) as CL.
  split; [rewrite E; unfold assembled; fold f; f_equal; rewrite <- app_assoc; f_equal; rewrite <- app_assoc; reflexivity|]. split; [|split].
  - assert (G : forall l : str, Z.of_nat (length l) = f -> length l = Z.to_nat f) by (intros; lia).
    assert (RU : forall a b, length (bytes a) = 1 -> length (bytes b) = 1 -> length (ruler a b f) = Z.to_nat f) by (intros a b A B; apply G, ruler_length; [exact A|exact B|lia]).
    repeat (apply Forall_app; split); repeat (apply Forall_cons || apply Forall_nil); try (apply RU; reflexivity); try apply G.
    + exact (m_top _ _ _ _ _ _ _ M).
    + pose proof (m_sys _ _ _ _ _ _ _ M) as S. fold f in S. rewrite !app_length. change (length (bytes "|")) with 1. lia.
    + eapply LN; [| |exact (m_titles _ _ _ _ _ _ _ M)]; [cbn; tauto|destruct inc; reflexivity].
    + eapply Forall_impl; [|apply FS; lia]. intros l. apply G.
    + eapply LN; [| |exact (m_sums _ _ _ _ _ _ _ M)]; [cbn; tauto|rewrite map_length; exact CL].
    + eapply LN; [| |exact (m_means _ _ _ _ _ _ _ M)]; [cbn; tauto|rewrite map_length; exact CL].
    + eapply LN; [| |exact (m_sds _ _ _ _ _ _ _ M)]; [cbn; tauto|rewrite map_length; exact CL].
    + eapply LN; [| |exact (m_medians _ _ _ _ _ _ _ M)]; [cbn; tauto|rewrite map_length; exact CL].
  - rewrite !app_length. cbn [length]. etransitivity; [apply (f_equal (fun x => 5 + (x + 7)) LL)|]. cbv beta. assert (PL : length m = length (by_name m)) by apply Permutation_length, by_name_perm. set (x := length (by_name m)) in *. set (y := length m) in *. clearbody x y. lia.
  - split; intros H; unfold notes.
    + apply starred_iff in H. rewrite H. reflexivity.
    + destruct (starred (ds_of m)) eqn:S; [exfalso; apply H, starred_iff, S|reflexivity].
Qed.
Print Assumptions C114_shape.

(** The heading, the name of the system, the titles, the rules between the lines and the notes. *)
Theorem C114_head : forall raw inc junk m nce tnce systm ls, Forall (fun e => 1 <= d_segs (snd e)) m -> table raw inc junk m nce tnce systm = Ok ls ->
  (exists l, nth_error ls 0 = Some l /\ centred (bytes "SYSTEM SUMMARY PERCENTAGE by SPEAKER") l)
  /\ (exists base, ~ In 47%N base /\ (systm = base \/ exists d, systm = d ++ bytes "/" ++ base)
       /\ (length base <= 80 -> exists l, nth_error ls 2 = Some (bytes "|" ++ l ++ bytes "|") /\ centred base l))
  /\ (exists l, nth_error ls 4 = Some l /\ row (bytes "Speaker") (bytes "#Snt") (bytes "#Wrd") (titles inc) (bytes "S.Err") (bytes "NCE") l)
  /\ (forall k l, nth_error ls k = Some l ->
        (k = 1 -> ruled "." "-" l) /\ (k = 3 \/ (exists i, i < length m /\ k = 5 + 2 * i) -> ruled "|" "-" l)
        /\ (k = 5 + 2 * length m \/ k = 7 + 2 * length m -> ruled "|" "=" l) /\ (k = 11 + 2 * length m -> ruled "'" "-" l))
  /\ (no_words m -> skipn (12 + 2 * length m) ls = explanations).
Proof.
  intros raw inc junk m nce tnce systm ls SG E. destruct (table_made_head raw inc junk m nce tnce systm SG) as (p & E' & M & W & N7 & TO & SY). rewrite E in E'. injection E' as ->.
  pose proof (full_82 _ _ _ _ _ _ _ M N7) as F82.
  destruct (speaker_lines_ok raw inc junk (p_w p) (starred (ds_of m)) nce W (by_name m)) as (ls & EL & LL & _). pose proof (m_lines _ _ _ _ _ _ _ M) as ML. assert (ELS : Ok ls = Ok (p_lines p)) by exact (eq_trans (eq_sym EL) ML). injection ELS as ->.
  assert (PL : length m = length (by_name m)) by exact (Permutation_length (by_name_perm m)).
  assert (LM : length (p_lines p) = 2 * length m) by exact (eq_trans LL (f_equal (fun x => 2 * x) (eq_sym PL))). clear LL.
  assert (RU : forall e c w, ruled e c (ruler e c w)) by (intros e c w; eexists; reflexivity).
  split; [|split; [|split; [|split]]].
  - exists (p_top p). split; [reflexivity|apply TO; lia].
  - exists (file_name systm). destruct (file_name_ok systm) as (F1 & F2). split; [exact F1|]. split; [exact F2|]. intros L. exists (p_sys p). split; [reflexivity|apply SY; lia].
  - exists (p_titles p). split; [reflexivity|]. pose proof (m_titles _ _ _ _ _ _ _ M) as T. unfold title_line in T.
    match type of T with line _ ?j ?a ?b ?c ?v ?d ?s ?n = _ => destruct (line_ok inc (p_w p) j a b c v d [] s n W ltac:(cbn; tauto) ltac:(destruct inc; reflexivity)) as (l & EL' & _ & R) end.
    assert (X : Ok l = Ok (p_titles p)) by exact (eq_trans (eq_sym EL') T). injection X as ->. clear T EL'.
    replace (titles inc) with (map (fun v : str => v ++ []) (titles inc)) by (rewrite <- (map_id (titles inc)) at 2; apply map_ext; intros; apply app_nil_r).
    assert (SO : forall s : string, existsb (N.eqb 32) (bytes s) = false -> bytes s <> [] -> solid (bytes s)).
    { intros s H N. split; [exact N|]. apply Forall_forall. intros c I ->. rewrite (proj2 (existsb_exists _ _)) in H; [discriminate|]. exists 32%N. split; [exact I|reflexivity]. }
    pose proof (column_wide _ _ _ _ (m_cs _ _ _ _ _ _ _ M)) as CW. pose proof (cols_length _ _ _ _ _ _ _ M) as CL. rewrite <- (m_wcols _ _ _ _ _ _ _ M) in CW. rewrite <- (map_length c_size), <- (m_wcols _ _ _ _ _ _ _ M) in CL.
    apply R; unfold fits; try (apply SO; [reflexivity|discriminate]); try (change (length (@nil N)) with 0; rewrite ?Nat.add_0_r).
    + left. split; [reflexivity|constructor].
    + change (length (bytes "Speaker")) with 7. lia.
    + change (length (bytes "#Snt")) with 4. rewrite (m_wsegs _ _ _ _ _ _ _ M). lia.
    + change (length (bytes "#Wrd")) with 4. rewrite (m_wrefs _ _ _ _ _ _ _ M). lia.
    + clear - CW CL. destruct inc; repeat (destruct CW as [|? ? ? CW]; try discriminate CL); cbn [map app]; repeat constructor; cbn; lia.
    + change (length (bytes "S.Err")) with 5. rewrite (m_wserr _ _ _ _ _ _ _ M). lia.
    + cbn. lia.
    + destruct inc; cbn [map app]; repeat (apply Forall_cons || apply Forall_nil); apply SO; (reflexivity || discriminate).
  - intros k l H. assert (NT : forall j, 5 <= j -> nth_error (assembled inc m p) (j + 2 * length m) = nth_error ([ruler "|" "=" (full inc (p_w p)); p_sums p; ruler "|" "=" (full inc (p_w p)); p_means p; p_sds p; p_medians p; ruler "'" "-" (full inc (p_w p))] ++ notes (starred (ds_of m))) (j - 5)).
    { intros j K. unfold assembled. rewrite nth_error_app2 by (cbn [length]; lia). cbn [length]. rewrite nth_error_app2 by lia. f_equal. lia. }
    split; [intros ->; injection H as <-; apply RU|]. split; [|split].
    + intros [->|(i & I & ->)]; [injection H as <-; apply RU|]. unfold assembled in H. rewrite nth_error_app2 in H by (cbn [length]; lia). cbn [length] in H. replace (5 + 2 * i - 5) with (2 * i) in H by lia. rewrite nth_error_app1 in H by lia.
      assert (I' : i < length (by_name m)) by (rewrite <- PL; exact I). rewrite (speaker_rules raw inc junk (p_w p) _ nce (by_name m) (p_lines p) ML i I') in H. injection H as <-. apply RU.
    + intros [-> | ->]; rewrite NT in H by lia; injection H as <-; apply RU.
    + intros ->; rewrite NT in H by lia; injection H as <-; apply RU.
  - intros NW. apply starred_iff in NW. unfold assembled. rewrite NW. set (b := p_lines p) in *.
    rewrite skipn_app. cbn [length]. rewrite skipn_all2 by (cbn [length]; lia). cbn [app]. replace (12 + 2 * length m - 5) with (7 + 2 * length m) by lia. rewrite skipn_app, skipn_all2 by lia. cbn [app]. replace (7 + 2 * length m - length b) with 7 by lia. reflexivity.
Qed.
Print Assumptions C114_head.

(** Every speaker has a line, in the order of the names: it shows the counts, or the percentages of the reference words.
    A percentage has room below 10000. *)
Theorem C114_speakers : forall raw inc junk m nce tnce systm ls, NoDup (map fst m) -> Forall (fun e => counted (snd e)) m ->
  (raw = false -> Forall (fun e => 1 <= d_refs (snd e) -> (100 * Z.of_nat (errors (snd e)) <= 9999 * Z.of_nat (d_refs (snd e)))%Z) m) ->
  table raw inc junk m nce tnce systm = Ok ls ->
  exists order, Permutation m order /\ StronglySorted (fun a b => earlier (fst a) (fst b)) order
    /\ forall k n d, nth_error order k = Some (n, d) -> exists l, nth_error ls (6 + 2 * k) = Some l /\ speaker_row raw inc n d (nce n) l.
Proof.
  intros raw inc junk m nce tnce systm ls ND C PE E. destruct (table_made raw inc junk m nce tnce systm (table_ok_segs m (conj ND C))) as (p & E' & M & W & N7). rewrite E in E'. injection E' as ->.
  exists (by_name m). split; [apply by_name_perm|]. split; [apply by_name_sorted, ND|]. intros k n d H.
  destruct (speaker_lines_ok raw inc junk (p_w p) (starred (ds_of m)) nce W (by_name m)) as (ls & EL & LL & K & _). pose proof (m_lines _ _ _ _ _ _ _ M) as ML. assert (ELS : Ok ls = Ok (p_lines p)) by exact (eq_trans (eq_sym EL) ML). injection ELS as ->.
  destruct (K k n d H) as (l & NL & SL). exists l. split.
  - unfold assembled. replace (6 + 2 * k) with (5 + (2 * k + 1)) by lia. rewrite nth_error_app2 by (cbn [length]; lia). cbn [length]. replace (5 + (2 * k + 1) - 5) with (2 * k + 1) by lia. rewrite nth_error_app1; [exact NL|]. apply nth_error_Some. rewrite NL. discriminate.
  - assert (I : In (n, d) m) by (eapply Permutation_in; [symmetry; apply by_name_perm|eapply nth_error_In, H]). rewrite Forall_forall in C.
    eapply (speaker_row_ok raw inc junk m nce tnce p M W n d l); [eapply nth_error_In, H|exact (C _ I)| |exact SL]. intros R. specialize (PE R). rewrite Forall_forall in PE. exact (PE _ I).
Qed.
Print Assumptions C114_speakers.

(** The line after the speakers shows the sums over all speakers, or their percentages of all reference words. *)
Theorem C114_sums : forall raw inc junk m nce tnce systm ls, NoDup (map fst m) -> Forall (fun e => counted (snd e)) m ->
  (forall f, In f (d_segs :: d_refs :: d_segerrs :: counts inc) -> (Z.of_nat (all f m) < 2 ^ 31)%Z) ->
  (raw = false -> 1 <= all d_refs m /\ (100 * Z.of_nat (all errors m) <= 9999 * Z.of_nat (all d_refs m))%Z) -> within tnce 9999 ->
  table raw inc junk m nce tnce systm = Ok ls ->
  exists l, nth_error ls (6 + 2 * length m) = Some l /\ sum_row raw inc m tnce l.
Proof.
  intros raw inc junk m nce tnce systm ls ND C SM PE TN E. destruct (table_made raw inc junk m nce tnce systm (table_ok_segs m (conj ND C))) as (p & E' & M & W & N7). rewrite E in E'. injection E' as ->.
  destruct (speaker_lines_ok raw inc junk (p_w p) (starred (ds_of m)) nce W (by_name m)) as (ls & EL & LL & _). pose proof (m_lines _ _ _ _ _ _ _ M) as ML. assert (ELS : Ok ls = Ok (p_lines p)) by exact (eq_trans (eq_sym EL) ML). injection ELS as ->.
  assert (LM : length (p_lines p) = 2 * length m) by exact (eq_trans LL (f_equal (fun x => 2 * x) (eq_sym (Permutation_length (by_name_perm m))))). clear LL. rename LM into LL. exists (p_sums p). split.
  - unfold assembled. rewrite nth_error_app2 by (cbn [length]; lia). cbn [length]. rewrite nth_error_app2 by lia. replace (6 + 2 * length m - 5 - length (p_lines p)) with 1 by lia. reflexivity.
  - destruct (all_counted m C) as (A1 & A2 & A3 & A4). eapply (sum_row_ok raw inc junk m nce tnce p M W); [| |exact TN|exact (m_sums _ _ _ _ _ _ _ M)].
    + intros f I. cbn [In] in I. destruct I as [<-|[<-|[<-|I]]]; try (apply SM; cbn; tauto). pose proof (all_errors m) as EE. pose proof (SM errors) as SE. unfold shown in I. unfold counts in SM, SE. destruct inc; cbn [app In] in *; repeat (destruct I as [<-|I]); try contradiction; try (apply SM; tauto); rewrite <- EE; apply SE; tauto.
    + intros R. destruct (PE R) as (P1 & P2). split; [exact P1|]. split; [destruct m; [cbn in P1; lia|cbn [length] in A4; lia]|]. split; [exact A3|]. intros f I. apply (shown_sums inc m f I C P2).
Qed.
Print Assumptions C114_sums.

(** Then the means and the medians are shown, over all speakers for the first two columns and the last but one, and over
    those with reference words for the others. *)
Theorem C114_statistics : forall raw inc junk m nce tnce systm ls, Forall (fun e => 1 <= d_segs (snd e)) m ->
  table raw inc junk m nce tnce systm = Ok ls ->
  (Forall (fun v => Forall (fun x => within x (snd v)) (fst v)) (all_values raw inc m nce) ->
     exists l1 l2, nth_error ls (8 + 2 * length m) = Some l1 /\ stat_row raw inc m nce (bytes "Mean") mean_of l1
       /\ nth_error ls (10 + 2 * length m) = Some l2 /\ stat_row raw inc m nce (bytes "Median") median_of l2)
  /\ (Forall (fun v => fst v <> [] -> 2 <= length (fst v) /\ (sample_variance (fst v) <= snd v * snd v)%Q) (all_values raw inc m nce) ->
     exists l, nth_error ls (9 + 2 * length m) = Some l /\ stat_row raw inc m nce (bytes "S.D.") deviation_of l).
Proof.
  intros raw inc junk m nce tnce systm ls SG E. destruct (table_made raw inc junk m nce tnce systm SG) as (p & E' & M & W & N7). rewrite E in E'. injection E' as ->.
  destruct (speaker_lines_ok raw inc junk (p_w p) (starred (ds_of m)) nce W (by_name m)) as (ls & EL & LL & _). pose proof (m_lines _ _ _ _ _ _ _ M) as ML. assert (ELS : Ok ls = Ok (p_lines p)) by exact (eq_trans (eq_sym EL) ML). injection ELS as ->.
  assert (LM : length (p_lines p) = 2 * length m) by exact (eq_trans LL (f_equal (fun x => 2 * x) (eq_sym (Permutation_length (by_name_perm m))))). clear LL. rename LM into LL.
  assert (NT : forall k, 5 <= k -> nth_error (assembled inc m p) (k + 2 * length m) = nth_error ([ruler "|" "=" (full inc (p_w p)); p_sums p; ruler "|" "=" (full inc (p_w p)); p_means p; p_sds p; p_medians p; ruler "'" "-" (full inc (p_w p))] ++ notes (starred (ds_of m))) (k - 5)).
  { intros k K. unfold assembled. rewrite nth_error_app2 by (cbn [length]; lia). cbn [length]. rewrite nth_error_app2 by lia. f_equal. lia. }
  split.
  - intros F. exists (p_means p), (p_medians p). rewrite !NT by lia. split; [reflexivity|]. split; [|split; [reflexivity|]].
    + eapply (stat_row_ok raw inc junk m nce tnce p mean_of (mean junk) fit_values); [exact M|exact W|apply mean_well|apply mean_solid|cbn; lia|exact F|exact (m_means _ _ _ _ _ _ _ M)].
    + eapply (stat_row_ok raw inc junk m nce tnce p median_of (median junk) fit_values); [exact M|exact W|apply median_well|apply median_solid|cbn; lia|exact F|exact (m_medians _ _ _ _ _ _ _ M)].
  - intros F. exists (p_sds p). rewrite NT by lia. split; [reflexivity|].
    eapply (stat_row_ok raw inc junk m nce tnce p deviation_of (deviation junk) fit_spread); [exact M|exact W|apply deviation_well|apply deviation_solid|cbn; lia|exact F|exact (m_sds _ _ _ _ _ _ _ M)].
Qed.
Print Assumptions C114_statistics.

(** Every system has one table, of the counters that C19 speaks of, in the order of the systems; the speakers of the
    counters have different names, segments, and consistent counts. *)
Theorem C114_reports : forall raw inc junk outdir opens where_ w al nce tnce systems,
  Forall (fun s => complete (fst s) al /\ Forall final (entries (fst s) al)) systems ->
  exists ms ts, reports w (map fst systems) al [] = Ok ms /\ length ts = length systems
    /\ generate raw inc junk outdir opens where_ w al nce tnce 0 systems [] = Ok (combine (map (fun s => target raw outdir opens where_ (snd s)) systems) ts)
    /\ forall i s, nth_error systems i = Some s -> exists m t, nth_error ms i = Some m /\ nth_error ts i = Some t
         /\ NoDup (map fst m) /\ Forall (fun e => counted (snd e)) m /\ table raw inc junk m (nce i) (tnce i) (fst s) = Ok t.
Proof.
  intros raw inc junk outdir opens where_ w al nce tnce systems F. destruct (generate_ok raw inc junk outdir opens where_ w al nce tnce systems [] 0) as (ms & ts & A & B & D & K); [split; constructor|exact F|].
  exists ms, ts. do 3 (split; [assumption|]). intros i s H. destruct (K i s H) as (m & t & X1 & X2 & (X3 & X4) & X5). exists m, t. auto.
Qed.
Print Assumptions C114_reports.

(** Where a table goes: to the standard output, or to the file named after that of the system, in the given directory. *)
Theorem C114_places : forall (raw : bool) outdir (opens : str -> bool) where_ filename,
  let ext := bytes (if raw then ".raw" else ".sys") in
  (where_ <> 1%Z -> target raw outdir opens where_ filename = Stdout)
  /\ (where_ = 1%Z -> forall name, target raw outdir opens where_ filename = File name -> opens name = true
        /\ (outdir = [] -> name = filename ++ ext)
        /\ (outdir <> [] -> exists base, name = outdir ++ bytes "/" ++ base ++ ext /\ ~ In 47%N base /\ (filename = base \/ exists d, filename = d ++ bytes "/" ++ base)))
  /\ (where_ = 1%Z -> (forall name, opens name = true) -> exists name, target raw outdir opens where_ filename = File name).
Proof.
  intros raw outdir opens where_ filename ext. unfold target. split; [|split].
  - intros N. apply Z.eqb_neq in N. rewrite N. reflexivity.
  - intros -> name. cbn [Z.eqb Pos.eqb]. fold ext. destruct (str_eqb outdir []) eqn:B.
    + apply str_eqb_spec in B. destruct (opens (filename ++ ext)) eqn:OP; [|discriminate]. intros H. injection H as <-. split; [exact OP|]. split; [reflexivity|]. intros X. contradiction.
    + match goal with |- context [if ?b then File _ else _] => destruct b eqn:OP end; [|discriminate]. intros H. injection H as <-. split; [exact OP|]. split.
      * intros ->. discriminate B.
      * intros _. exists (file_name filename). split; [reflexivity|]. exact (file_name_ok filename).
  - intros -> OP. cbn [Z.eqb Pos.eqb]. rewrite OP. eexists. reflexivity.
Qed.
Print Assumptions C114_places.

(** ** What is not so *)
Definition sp segs refs corr sub spk del ins segerrs : datas :=
  {| d_segs := segs; d_refs := refs; d_corr := corr; d_sub := sub; d_spk := spk; d_del := del; d_ins := ins; d_segerrs := segerrs |}.

(** A percentage of 10000 or more is cut: the tables of different speakers are the same. *)
Theorem C114_percentage_refuted : ~ forall inc junk n d1 d2 nce tnce systm ls, counted d1 -> counted d2 ->
  table false inc junk [(n, d1)] nce tnce systm = Ok ls -> table false inc junk [(n, d2)] nce tnce systm = Ok ls ->
  (ratio (d_ins d1) (d_refs d1) == ratio (d_ins d2) (d_refs d2))%Q.
Proof.
  intros H. specialize (H false 0%Z (bytes "a") (sp 1 1 1 0 0 0 100 1) (sp 1 1 1 0 0 0 200 1) (fun _ => 0%Q) 0%Q (bytes "s")).
  destruct (table false false 0 [(bytes "a", sp 1 1 1 0 0 0 100 1)] (fun _ => 0%Q) 0 (bytes "s")) as [ls| | |] eqn:E; try (vm_compute in E; discriminate).
  specialize (H ls ltac:(unfold counted; cbn; lia) ltac:(unfold counted; cbn; lia) eq_refl). rewrite <- E in H. specialize (H ltac:(vm_compute; reflexivity)). vm_compute in H. discriminate.
Qed.
Print Assumptions C114_percentage_refuted.

(** The column of the mean number of reference words is too narrow for 10000: it has room for the sum only. *)
Theorem C114_mean_refuted : ~ forall inc junk m nce tnce systm ls l w, Forall (fun e => counted (snd e)) m ->
  table true inc junk m nce tnce systm = Ok ls -> nth_error ls (8 + 2 * length m) = Some l -> In w (words l) -> firstn 3 w <> bytes "...".
Proof.
  intros H. set (k := Z.to_nat 10000). assert (CK : counted (sp 1 k k 0 0 0 0 0)) by (unfold counted; cbn [sp d_refs d_corr d_sub d_spk d_del d_segerrs d_segs]; lia).
  specialize (H false 0%Z [(bytes "a", sp 1 k k 0 0 0 0 0)] (fun _ => 0%Q) 0%Q (bytes "s")).
  destruct (table true false 0 [(bytes "a", sp 1 k k 0 0 0 0 0)] (fun _ => 0%Q) 0 (bytes "s")) as [ls| | |] eqn:E; try (vm_compute in E; discriminate).
  destruct (nth_error ls 10) as [l|] eqn:NL; [|vm_compute in E; injection E as <-; discriminate NL].
  apply (H ls l (bytes "...0.0") ltac:(repeat constructor; exact CK) eq_refl NL); [|reflexivity].
  vm_compute in E. injection E as <-. cbn [nth_error] in NL. injection NL as <-. vm_compute. tauto.
Qed.
Print Assumptions C114_mean_refuted.

(** The standard deviation over one speaker is shown, as an undefined number. *)
Theorem C114_deviation_refuted : ~ forall raw inc junk1 junk2 m nce tnce systm, Forall (fun e => counted (snd e)) m ->
  table raw inc junk1 m nce tnce systm = table raw inc junk2 m nce tnce systm.
Proof.
  intros H. specialize (H false false 0%Z 7%Z [(bytes "a", sp 1 2 2 0 0 0 0 0)] (fun _ => 0%Q) 0%Q (bytes "s") ltac:(repeat constructor)). vm_compute in H. discriminate.
Qed.
Print Assumptions C114_deviation_refuted.

(** Without any reference words a hundred times the count is shown as the percentage of all speakers. *)
Theorem C114_no_words_refuted : ~ forall inc junk m nce tnce systm ls l, Forall (fun e => counted (snd e)) m -> all d_refs m = 0 -> all d_ins m = 3 ->
  table false inc junk m nce tnce systm = Ok ls -> nth_error ls (6 + 2 * length m) = Some l -> ~ In (bytes "300.0") (words l).
Proof.
  intros H. specialize (H false 0%Z [(bytes "a", sp 1 0 0 0 0 0 3 1)] (fun _ => 0%Q) 0%Q (bytes "s")).
  destruct (table false false 0 [(bytes "a", sp 1 0 0 0 0 0 3 1)] (fun _ => 0%Q) 0 (bytes "s")) as [ls| | |] eqn:E; try (vm_compute in E; discriminate).
  destruct (nth_error ls 8) as [l|] eqn:NL; [|vm_compute in E; injection E as <-; discriminate NL].
  apply (H ls l ltac:(repeat constructor) eq_refl eq_refl eq_refl NL).
  vm_compute in E. injection E as <-. cbn [nth_error] in NL. injection NL as <-. vm_compute. tauto.
Qed.
Print Assumptions C114_no_words_refuted.

(** A table whose file cannot be opened is lost, although the message says that it goes to the standard output. *)
Theorem C114_lost_refuted : ~ forall raw outdir opens where_ filename, target raw outdir opens where_ filename <> Nowhere.
Proof. intros H. exact (H true [] (fun _ => false) 1%Z (bytes "f") eq_refl). Qed.
Print Assumptions C114_lost_refuted.

Definition ex_m : smap datas := [(bytes "bob", sp 3 20 15 3 0 2 1 2); (bytes "alice", sp 2 7 7 0 0 0 0 0)].
Definition ex_lines (raw : bool) : list str := match table raw false 0 ex_m (fun _ => (1 # 4)%Q) (1 # 3)%Q (bytes "d/sys.ctm") with Ok ls => ls | _ => [] end.
Example tables_case : forall raw, Forall (fun e => 1 <= d_segs (snd e)) ex_m /\ NoDup (map fst ex_m) /\ Forall (fun e => counted (snd e)) ex_m
  /\ Forall (fun e => 1 <= d_refs (snd e) -> (100 * Z.of_nat (errors (snd e)) <= 9999 * Z.of_nat (d_refs (snd e)))%Z) ex_m
  /\ (forall f, In f (d_segs :: d_refs :: d_segerrs :: counts false) -> (Z.of_nat (all f ex_m) < 2 ^ 31)%Z)
  /\ 1 <= all d_refs ex_m /\ (100 * Z.of_nat (all errors ex_m) <= 9999 * Z.of_nat (all d_refs ex_m))%Z
  /\ table raw false 0 ex_m (fun _ => (1 # 4)%Q) (1 # 3)%Q (bytes "d/sys.ctm") = Ok (ex_lines raw)
  /\ nth_error (ex_lines false) 6 = Some (bytes "| alice   |     2      7 |  100.0    0.0    0.0    0.0    0.0    0.0 |   0.250   |")
  /\ nth_error (ex_lines true) 10 = Some (bytes "| Sum     |     5     27 |     22      3      2      1      6      2 |   0.333   |").
Proof.
  intros raw. split; [repeat constructor|]. split; [repeat constructor; cbn; intuition discriminate|]. split; [repeat constructor|]. split; [repeat constructor; intros _; vm_compute; discriminate|].
  split; [intros f I; cbn [In counts app] in I; repeat (destruct I as [<-|I]); try contradiction; reflexivity|]. split; [vm_compute; lia|]. split; [vm_compute; discriminate|]. split; [destruct raw; vm_compute; reflexivity|]. split; vm_compute; reflexivity.
Qed.
Example statistics_case : forall raw, Forall (fun v => Forall (fun x => within x (snd v)) (fst v)) (all_values raw false ex_m (fun _ => (1 # 4)%Q))
  /\ Forall (fun v => fst v <> [] -> 2 <= length (fst v) /\ (sample_variance (fst v) <= snd v * snd v)%Q) (all_values raw false ex_m (fun _ => (1 # 4)%Q)).
Proof.
  intros raw. split; destruct raw; vm_compute all_values; repeat constructor; cbn [fst snd length]; try lia; vm_compute; discriminate.
Qed.
