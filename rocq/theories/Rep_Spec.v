(** What the record of aligned words, the classification and the counters mean. *)
From Coq Require Import List ZArith NArith Arith Bool String.
From Verif Require Import Base Store_Model Token_Model Rep_Model.
Import ListNotations.

(** What the record says about a system: for every row of every segment where the system has
    an entry, the segment, the reference word, the word of the system and the result. *)
Record entry := { n_seg : nat; n_ref : option nat; n_hyp : option nat; n_res : aresult }.
Definition row_entry (key : str) (s : nat) (t : talign) : list entry :=
  match massoc t key, massoc t (bytes "REFERENCE") with
  | Some (Some e), Some (Some r) => [{| n_seg := s; n_ref := ev_token r; n_hyp := ev_token e; n_res := ev_result e |}]
  | _, _ => []
  end.
Definition entries (key : str) (al : align) : list entry :=
  flat_map (fun e => flat_map (row_entry key (fst e)) (as_rows (snd e))) al.

(** Every row of the record has an entry for the system. *)
Definition complete (key : str) (al : align) : Prop :=
  forall s a t, In (s, a) al -> In t (as_rows a) -> row_entry key s t <> [].

(** A word pair: reference word and hypothesis word. *)
Definition pair := (option nat * option nat)%type.
(** The words of a column whose first [hri] places are for the hypothesis. *)
Definition is_word (x : option nat) : bool := match x with Some _ => true | None => false end.
Definition first_word (l : list (option nat)) : option nat := hd None (filter is_word l).
Definition col_pair (hri : nat) (c : column) : pair := (first_word (skipn hri c), first_word (firstn hri c)).
Definition refs_in (l : list pair) : list nat := flat_map (fun p => match fst p with Some x => [x] | None => [] end) l.

Definition together (w : world) (h s : nat) : bool := overlap_with (w_time w h) (w_stime w s).
(** The word overlaps the segment, or has no time. *)
Definition suits (w : world) (h s : nat) : bool :=
  together w h s || (to_start (w_time w h) <? 0)%Z || (to_end (w_time w h) <? 0)%Z.
(** The segment for an inserted word: that of the nearest reference word before it if it suits,
    otherwise that of the nearest one after it if it suits, otherwise the first segment of the
    group that overlaps it. *)
Definition home (w : world) (segs : list nat) (before after : list pair) (h : nat) : option nat :=
  match List.find (suits w h) (map (w_seg w) (firstn 1 (rev (refs_in before)) ++ firstn 1 (refs_in after))) with
  | Some s => Some s
  | None => List.find (together w h) segs
  end.
(** Where the pairs of one alignment belong: a reference word to its own segment. *)
Definition seg_for (w : world) (segs : list nat) (before after : list pair) (p : pair) : option nat :=
  match fst p, snd p with
  | Some r, _ => Some (w_seg w r)
  | None, Some h => home w segs before after h
  | None, None => None
  end.
Fixpoint placements (w : world) (segs : list nat) (before l : list pair) : option (list entry) :=
  match l with
  | [] => Some []
  | p :: after =>
    match seg_for w segs before after p, placements w segs (before ++ [p]) after with
    | Some s, Some r => Some ({| n_seg := s; n_ref := fst p; n_hyp := snd p; n_res := RUnavailable |} :: r)
    | _, _ => None
    end
  end.

(** A history: alignments of groups of reference segments, for some systems. *)
Record job := { j_hri : nat; j_segs : list nat; j_key : str; j_cols : list column }.
Definition j_pairs (j : job) : list pair := map (col_pair (j_hri j)) (j_cols j).
Fixpoint run_jobs (w : world) (js : list job) (al : align) : res align :=
  match js with
  | [] => Ok al
  | j :: r => match add_gas w (j_hri j) (j_segs j) (j_key j) (j_cols j) al with
              | Ok al' => run_jobs w r al'
              | e => e
              end
  end.
Definition jobs_for (key : str) (js : list job) : list job := filter (fun j => str_eqb (j_key j) key) js.
Definition ordered (t : timed) : Prop := (to_start t <= to_end t)%Z.
Definition job_ok (w : world) (j : job) : Prop :=
  j_key j <> bytes "REFERENCE" /\ Forall (fun p => p <> (None, None)) (j_pairs j) /\
  Forall (fun s => ordered (w_stime w s)) (j_segs j) /\
  forall h, In (None, Some h) (j_pairs j) -> ordered (w_time w h).
Definition jobs_ok (w : world) (js : list job) : Prop :=
  Forall (job_ok w) js /\ forall key, NoDup (refs_in (flat_map j_pairs (jobs_for key js))).

(** Speakers agree: always when speakers are not scored. *)
Definition speakers_agree (w : world) (o : scoring) (r h : nat) : Prop :=
  s_speaker o = true ->
  get_ref (s_map o) (w_src w (w_seg w h)) (w_ch w (w_seg w h)) (w_spk w (w_seg w h)) = w_spk w (w_seg w r).
(** Optional words whose deletion or insertion is forgiven. *)
Definition forgives_ref (o : scoring) : Prop := s_optionally o = bytes "ref" \/ s_optionally o = bytes "both".
Definition forgives_hyp (o : scoring) : Prop := s_optionally o = bytes "hyp".
(** The result of a pair. *)
Definition result_ok (w : world) (o : scoring) (ref hyp : option nat) (v : aresult) : Prop :=
  match ref, hyp with
  | Some r, Some h =>
    (v = RCorrect /\ w_equiv w r h = true /\ speakers_agree w o r h) \/
    (v = RSpkSub /\ w_equiv w r h = true /\ ~ speakers_agree w o r h) \/
    (v = RSubst /\ w_equiv w r h = false)
  | Some r, None => (v = RCorrect /\ w_optional w r = true /\ forgives_ref o) \/
                    (v = RDel /\ ~ (w_optional w r = true /\ forgives_ref o))
  | None, Some h => (v = RCorrect /\ w_optional w h = true /\ forgives_hyp o) \/
                    (v = RIns /\ ~ (w_optional w h = true /\ forgives_hyp o))
  | None, None => False
  end.
(** The scored entry: same segment and words, and the right result. *)
Definition scored (w : world) (o : scoring) (e e' : entry) : Prop :=
  n_seg e' = n_seg e /\ n_ref e' = n_ref e /\ n_hyp e' = n_hyp e /\ result_ok w o (n_ref e) (n_hyp e) (n_res e').

(** Counting. *)
Definition count {A} (p : A -> bool) (l : list A) : nat := List.length (filter p l).
Definition res_eqb (a b : aresult) : bool :=
  match a, b with
  | RCorrect, RCorrect | RSubst, RSubst | RSpkSub, RSpkSub | RDel, RDel | RIns, RIns
  | RReference, RReference | RInvalid, RInvalid | RUnavailable, RUnavailable => true
  | _, _ => false
  end.
Definition said (w : world) (spk : str) (v : aresult) (e : entry) : bool :=
  str_eqb (w_spk w (n_seg e)) spk && res_eqb (n_res e) v.
Definition bad (v : aresult) : bool := negb (res_eqb v RCorrect).
Definition spoken (w : world) (spk : str) (e : nat * aseg) : bool := str_eqb (w_spk w (fst e)) spk.
Definition faulty (w : world) (key spk : str) (e : nat * aseg) : bool :=
  spoken w spk e && existsb (fun x => bad (n_res x)) (entries key [e]).

(** The counters [d] of a speaker after the report of a system, from the counters [d0] before. *)
Record counted (w : world) (key spk : str) (al : align) (d0 d : datas) : Prop := {
  ct_corr : d_corr d = d_corr d0 + count (said w spk RCorrect) (entries key al);
  ct_sub : d_sub d = d_sub d0 + count (said w spk RSubst) (entries key al);
  ct_spk : d_spk d = d_spk d0 + count (said w spk RSpkSub) (entries key al);
  ct_del : d_del d = d_del d0 + count (said w spk RDel) (entries key al);
  ct_ins : d_ins d = d_ins d0 + count (said w spk RIns) (entries key al);
  ct_refs : d_refs d = d_refs d0 + count (said w spk RCorrect) (entries key al) + count (said w spk RSubst) (entries key al)
     + count (said w spk RSpkSub) (entries key al) + count (said w spk RDel) (entries key al);
  ct_segs : d_segs d = d_segs d0 + count (spoken w spk) al;
  ct_errs : d_segerrs d = d_segerrs d0 + count (faulty w key spk) al }.

(** A word pair of a system with a final result. *)
Definition final (e : entry) : Prop :=
  match n_res e with
  | RCorrect | RDel => True
  | RSubst | RSpkSub | RIns => n_hyp e <> None
  | _ => False
  end.
Definition with_result (v : aresult) (e : entry) : bool := res_eqb (n_res e) v.
(** The words of the alignments. *)
Definition hyps_in (l : list pair) : list nat := flat_map (fun p => match snd p with Some x => [x] | None => [] end) l.
Definition words_of (w : world) (spk : str) (l : list nat) : nat := count (fun r => str_eqb (w_spk w (w_seg w r)) spk) l.
