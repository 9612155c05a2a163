(** Theorems about the speaker map (C16), the properties (C17) and the aligned tokens (C50). *)
From Coq Require Import List ZArith NArith Arith Bool String Lia.
From Verif Require Import Base Store_Model Store_Spec Store_Proofs Store_Proofs2.
Import ListNotations.

(** C16: a lookup gives the first registration for the file, channel and system speaker. *)
Theorem C16_lookup : forall h f c s,
  Forall (fun g => no_bar (g_file g) /\ no_bar (g_channel g)) h -> no_bar f -> no_bar c ->
  get_ref (register_all h) f c s = first_ref h f c s.
Proof. intros h f c s F Hf Hc. unfold register_all. rewrite register_assoc by assumption. reflexivity. Qed.
Print Assumptions C16_lookup.

(** C16: loading a file of six-column rows registers its mapped rows, first row first. *)
Theorem C16_file : forall rows f c s, Forall csv_ok rows -> no_bar f -> no_bar c ->
  exists m, load_lines [] (map csv_line rows) = Ok m /\ get_ref m f c s = first_ref (mapped_rows rows) f c s.
Proof.
  intros rows f c s F Hf Hc. eexists. split; [apply load_lines_csv; exact F|].
  rewrite register_assoc; [reflexivity| |assumption|assumption].
  apply Forall_forall. intros g Hg. unfold mapped_rows in Hg. apply in_map_iff in Hg as (v & <- & Hv).
  apply filter_In in Hv as [Hv _]. rewrite Forall_forall in F. apply F in Hv as (_ & A & B & _). auto.
Qed.
Print Assumptions C16_file.

(** A separator inside a name makes two different speakers share one entry. *)
Theorem C16_separator_refuted : exists f c s f' c' s' r,
  (f, c, s) <> (f', c', s') /\ r <> [] /\
  get_ref (register_all [{| g_file := f; g_channel := c; g_sys := s; g_ref := r |}]) f' c' s' = r.
Proof.
  exists (bytes "a"), (bytes "1"), (bytes "b|c"), (bytes "a"), (bytes "1|b"), (bytes "c"), (bytes "x").
  split; [discriminate|]. split; [discriminate|]. vm_compute. reflexivity.
Qed.
Print Assumptions C16_separator_refuted.

(** A row with a seventh column is stored behind the array of six. *)
Theorem C16_long_line_refuted : load_lines [] [bytes "f,1,r,s,mapped,1.0,x"] = Undef.
Proof. vm_compute. reflexivity. Qed.
Print Assumptions C16_long_line_refuted.

(** C17: the value read is the last one set, or the supplied or default one after an
    initialisation; reading changes no value. *)
Theorem C17_value : forall h name, fst (get_property (run_props h) name) = value_of (rev h) name.
Proof. intros. rewrite get_property_val. apply run_props_val. Qed.
Print Assumptions C17_value.

(** C17: after any history without settings following the initialisation, every key has its
    supplied value, else its documented default. *)
Theorem C17_initialised : forall h m gets name,
  fst (get_property (run_props (h ++ PInit m :: map PGet gets)) name) =
  match massoc m name with Some v => v | None => default_in defaults name end.
Proof.
  intros h m gets name. rewrite get_property_val, run_props_val, rev_app_distr. cbn [rev].
  rewrite <- app_assoc, <- map_rev. generalize (rev gets). intro l.
  induction l as [|k l IH]; cbn [map app value_of]; [reflexivity|exact IH].
Qed.
Print Assumptions C17_initialised.

(** C17: the change flag is up exactly when no property was read since the last setting. *)
Theorem C17_changed : forall h, is_dirty (run_props h) = match rev h with PGet _ :: _ => false | _ => true end.
Proof. exact run_props_dirty. Qed.
Print Assumptions C17_changed.

(** C17: a speech set answers with the settings in force when it was created, whatever is read
    from the properties or from the speech set, or done to its origin, afterwards. *)
Theorem C17_speech_set : forall h ops,
  let w := fold_left do_set ops (new_sset (run_props h)) in
  fst (perform_case (fst w) (snd w)) = same_str (value_of (rev h) (bytes "align.case_sensitive")) (bytes "true") /\
  fst (fragments_correct (fst w) (snd w)) = same_str (value_of (rev h) (bytes "align.fragment_are_correct")) (bytes "true").
Proof.
  intros h ops. cbn zeta. rewrite !same_str_eqb. destruct (cached_reads h ops) as (A & B & _). split; assumption.
Qed.
Print Assumptions C17_speech_set.

(** A later setting is lost to every speech set but the first that asks. *)
Theorem C17_two_readers_refuted : exists p s1 s2,
  (p, s1, s2) = (let (p0, a) := new_sset initialize in let (p1, b) := new_sset p0 in
                 (set_property p1 (bytes "align.case_sensitive") (bytes "true"), a, b)) /\
  let (r1, w1) := perform_case p s1 in
  let (r2, _) := perform_case (fst w1) s2 in
  r1 = true /\ r2 = false /\ fst (get_property p (bytes "align.case_sensitive")) = bytes "true".
Proof.
  eexists. eexists. eexists. split; [vm_compute; reflexivity|]. vm_compute. auto.
Qed.
Print Assumptions C17_two_readers_refuted.

(** A set that is made a reference set after its creation never uses the choice "ref" for
    optionally deletable words, but uses the choice "hyp". *)
Theorem C17_optional_reference_refuted : forall choice, choice = bytes "ref" \/ choice = bytes "hyp" ->
  let p := set_property initialize (bytes "align.optionally") choice in
  let (p1, s) := new_sset p in
  fst (use_optionally p1 (set_origin s true)) = same_str choice (bytes "hyp").
Proof. intros choice [-> | ->]; vm_compute; reflexivity. Qed.
Print Assumptions C17_optional_reference_refuted.

(** C50: a row keeps the first token of each system; results belong to their system; a
    registration reports 1 exactly when the system is new; the reference token stays. *)
Theorem C50_table : forall ref h,
  Forall (fun o => op_key o <> bytes "REFERENCE") h -> results_after_tokens [] h ->
  exists t, run_ta (new_talign ref) h = Ok t /\
    (forall k, k <> bytes "REFERENCE" ->
       fst (get_token_for t k) = match first_token h k with Some x => x | None => None end /\
       fst (get_result_for t k) = match first_token h k with Some _ => last_result (rev h) k | None => RInvalid end /\
       forall tok, fst (add_alignment_for t k tok) = match first_token h k with Some _ => 0 | None => 1 end) /\
    get_reference_token t = Ok ref.
Proof.
  intros ref h F R. destruct (run_ta_ent h ref F R) as (t & E & A & B). exists t. split; [exact E|]. split.
  - intros k N. destruct (token_ent t k) as [T _]. destruct (result_ent t k) as [S _].
    rewrite T, S, (A k N). destruct (first_token h k) eqn:Q; cbn [ev_token ev_result]; split; try reflexivity; split; try reflexivity;
    intro tok; destruct (add_ent t k tok) as [C _]; rewrite C, (A k N), Q; reflexivity.
  - rewrite reference_ent, B. reflexivity.
Qed.
Print Assumptions C50_table.

(** C50: in an aligned segment every reference token has one row, in order of its first
    registration, holding the first token registered for each system; every registration
    without reference token has a row of its own with just that token; registrations for
    reference tokens of other segments are refused and change nothing. *)
Theorem C50_segment : forall own h, Forall (fun o => snd (fst o) <> bytes "REFERENCE") h ->
  exists a, run_as own new_aseg h = Ok (codes own [] h, a) /\
    map get_reference_token (as_rows a) = map Ok (row_refs [] (mine own h)) /\
    (forall i t x k, nth_error (as_rows a) i = Some t -> get_reference_token t = Ok (Some x) -> k <> bytes "REFERENCE" ->
       fst (get_token_for t k) = match first_for (mine own h) x k with Some y => y | None => None end /\
       fst (get_result_for t k) = match first_for (mine own h) x k with Some _ => RUnavailable | None => RInvalid end) /\
    Forall2 (fun e t => get_reference_token t = Ok None /\ forall k, k <> bytes "REFERENCE" ->
               fst (get_token_for t k) = (if same_str (fst e) k then snd e else None) /\
               fst (get_result_for t k) = (if same_str (fst e) k then RUnavailable else RInvalid))
            (inserted (mine own h))
            (filter (fun t => match get_reference_token t with Ok None => true | _ => false end) (as_rows a)).
Proof.
  intros own h F. destruct (run_as_ok own h F) as (a & E & I). destruct I as [I1 I2 I2' I3 I4].
  assert (RR : forall t o, row_ref t = Some o <-> get_reference_token t = Ok o).
  { intros t o. rewrite reference_ent. unfold row_ref. destruct (ent t reference_key); cbn [option_map]; split; congruence. }
  exists a. split; [exact E|]. split; [|split].
  - assert (G : forall l (rs : list (option nat)), map row_ref l = map Some rs -> map get_reference_token l = map Ok rs).
    { induction l as [|t l IH]; intros [|r rs] Q; try discriminate; [reflexivity|]. cbn [map] in *. injection Q as Q1 Q2.
      apply RR in Q1. rewrite Q1. f_equal. apply IH. exact Q2. }
    apply G. exact I1.
  - intros i t x k T R N. apply RR in R.
    assert (P : nth_error (row_refs [] (mine own h)) i = Some (Some x)).
    { assert (M : nth_error (map row_ref (as_rows a)) i = Some (row_ref t)) by (apply map_nth_error; exact T).
      rewrite I1, R, nth_error_map in M. destruct (nth_error (row_refs [] (mine own h)) i); cbn [option_map] in M; [|discriminate]. congruence. }
    specialize (I3 _ _ _ T P k N). destruct (token_ent t k) as [A _]. destruct (result_ent t k) as [B _]. rewrite A, B, I3.
    destruct (first_for (mine own h) x k); split; reflexivity.
  - assert (FE : filter (fun t => match get_reference_token t with Ok None => true | _ => false end) (as_rows a) = none_rows (as_rows a)).
    { unfold none_rows. apply filter_ext. intro t. rewrite reference_ent. unfold row_ref.
      destruct (ent t reference_key) as [e|]; cbn [option_map]; [destruct (ev_token e)|]; reflexivity. }
    rewrite FE. clear FE.
    assert (NR : Forall (fun t => row_ref t = Some None) (none_rows (as_rows a))).
    { apply Forall_forall. intros t Ht. unfold none_rows in Ht. apply filter_In in Ht as [_ Ht].
      destruct (row_ref t) as [[?|]|]; [discriminate|reflexivity|discriminate]. }
    revert NR. induction I4 as [|e t l l' H H' IH]; intro NR; constructor.
    + inversion NR; subst. split; [apply RR; assumption|]. intros k N. specialize (H k N).
      destruct (token_ent t k) as [A _]. destruct (result_ent t k) as [B _]. rewrite A, B, H, same_str_eqb.
      destruct (str_eqb (fst e) k); split; reflexivity.
    + apply IH. inversion NR; assumption.
Qed.
Print Assumptions C50_segment.

(** A system called REFERENCE never gets its own token. *)
Theorem C50_reference_key_refuted : forall ref tok,
  let t := snd (add_alignment_for (new_talign ref) (bytes "REFERENCE") tok) in
  fst (add_alignment_for (new_talign ref) (bytes "REFERENCE") tok) = 0 /\
  fst (get_token_for t (bytes "REFERENCE")) = ref.
Proof. intros. vm_compute. auto. Qed.
Print Assumptions C50_reference_key_refuted.

(** Asking for a system that has no token makes the row impossible to print. *)
Theorem C50_print_refuted : forall ref k, k <> bytes "REFERENCE" ->
  to_string_rows (new_talign ref) <> Undef /\ to_string_rows (snd (get_token_for (new_talign ref) k)) = Undef.
Proof.
  intros ref k N. split; [vm_compute; discriminate|].
  unfold get_token_for, mindex, new_talign. rewrite massoc_mput. cbn [massoc].
  rewrite str_eqb_neq by (unfold reference_key; congruence). cbn [snd mput].
  rewrite str_eqb_neq by (unfold reference_key; congruence). reflexivity.
Qed.
Print Assumptions C50_print_refuted.

(** Instances of the hypotheses. *)
Definition g1 := {| g_file := bytes "f"; g_channel := bytes "A"; g_sys := bytes "s1"; g_ref := bytes "bob" |}.
Definition g2 := {| g_file := bytes "f"; g_channel := bytes "A"; g_sys := bytes "s1"; g_ref := bytes "eve" |}.
Definition g3 := {| g_file := bytes "f"; g_channel := bytes "B"; g_sys := bytes "s1"; g_ref := bytes "ann" |}.
Example C16_lookup_case :
  Forall (fun g => no_bar (g_file g) /\ no_bar (g_channel g)) [g1; g2; g3] /\
  get_ref (register_all [g1; g2; g3]) (bytes "f") (bytes "A") (bytes "s1") = bytes "bob" /\
  get_ref (register_all [g1; g2; g3]) (bytes "f") (bytes "B") (bytes "s1") = bytes "ann" /\
  get_ref (register_all [g1; g2; g3]) (bytes "g") (bytes "B") (bytes "s1") = [].
Proof.
  split.
  - repeat (apply Forall_cons; [vm_compute; intuition congruence|]). apply Forall_nil.
  - vm_compute. auto.
Qed.

Definition v1 := {| v_file := bytes "f"; v_channel := bytes "A"; v_ref := bytes "bob"; v_sys := bytes "s1";
                    v_mapped := bytes "mapped"; v_time := bytes "3.2" |}.
Definition v2 := {| v_file := bytes "f"; v_channel := bytes "A"; v_ref := bytes "eve"; v_sys := bytes "s2";
                    v_mapped := bytes "unmapped"; v_time := bytes "" |}.
Example C16_file_case : Forall csv_ok [v1; v2] /\ first_ref (mapped_rows [v1; v2]) (bytes "f") (bytes "A") (bytes "s1") = bytes "bob" /\
  first_ref (mapped_rows [v1; v2]) (bytes "f") (bytes "A") (bytes "s2") = [].
Proof.
  split.
  - repeat (apply Forall_cons; [unfold csv_ok, no_comma, no_bar; vm_compute; intuition congruence|]). apply Forall_nil.
  - vm_compute. auto.
Qed.

Example C17_value_case :
  let h := [PInit [(bytes "align.optionally", bytes "both")]; PSet (bytes "x") (bytes "1"); PGet (bytes "y"); PSet (bytes "x") (bytes "2")] in
  map (value_of (rev h)) [bytes "x"; bytes "y"; bytes "align.optionally"; bytes "recording.maxnbofgb"]
  = [bytes "2"; []; bytes "both"; bytes "2"].
Proof. vm_compute. reflexivity. Qed.

Example C50_table_case :
  let h := [TAdd (bytes "s1") (Some 4); TToken (bytes "s2"); TSet (bytes "s1") RDel; TAdd (bytes "s1") (Some 9); TAdd (bytes "s2") None] in
  Forall (fun o => op_key o <> bytes "REFERENCE") h /\ results_after_tokens [] h /\
  first_token h (bytes "s1") = Some (Some 4) /\ last_result (rev h) (bytes "s1") = RDel.
Proof.
  split; [repeat (apply Forall_cons; [vm_compute; intuition congruence|]); apply Forall_nil|].
  split; [cbn; auto|]. vm_compute. auto.
Qed.

Example C50_segment_case :
  let h := [(Some 1, bytes "s", Some 5); (None, bytes "s", Some 6); (Some 7, bytes "s", None); (Some 1, bytes "s", Some 8)] in
  let own := fun x => Nat.eqb x 1 in
  Forall (fun o : as_op => snd (fst o) <> bytes "REFERENCE") h /\
  codes own [] h = [1; 1; -1; 0]%Z /\ row_refs [] (mine own h) = [Some 1; None].
Proof.
  split; [repeat (apply Forall_cons; [vm_compute; intuition congruence|]); apply Forall_nil|].
  vm_compute. auto.
Qed.
