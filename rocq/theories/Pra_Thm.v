(** C105: the printed alignment. *)
From Coq Require Import String Ascii List Arith ZArith NArith Bool Lia.
From Verif Require Import Base Text_Model NetDp_Model Word_Model Path_Model Path_Spec Scores_Spec Alex_Model Dtl_Model Dtl_Thm Case_Model Pra_Model Pra_Spec Pra_Proofs1 Pra_Proofs2.
Import ListNotations.
Local Open Scope res_scope.
Local Open Scope nat_scope.

(** Printing the steps from [from] to [to] of a sentence: if no word without a partner has more than 40
    letters and every column but the last fits a line, the steps are divided into groups, one for each set
    of lines, in order and without a gap; the lines are those of the specification; lines are broken where
    the next column would make them as long as [max]; and the numbers of the head are those of the steps
    printed. *)
Lemma count_number ev (l : list (step word)) : count ev l = number ev l.
Proof. unfold count, number. apply (f_equal (@length (step word))). apply filter_ext. intros [[x y] e]. destruct e, ev; reflexivity. Qed.
Theorem C105_printed : forall up n a path from to max, from < to -> to <= length path ->
  let piece := firstn (to - from) (skipn from path) in
  Forall well_formed_step piece -> Forall short_gaps piece -> 9 < max -> Forall (fun s => 10 + col a s < max) (removelast piece) ->
  exists ps h, n_print (S (length path)) up n a path (Z.of_nat from) (Z.of_nat to) (Z.of_nat max) = Ok (h, printed up n a (from =? 0) ps)
    /\ concat ps = piece /\ broken a max (from =? 0) ps
    /\ (h_c h, h_s h, h_d h, h_i h) = (number PCorr piece, number PSub piece, number PDel piece, number PIns piece)
    /\ h_range h = (if (from =? 0) && (to =? length path) then None else Some (Z.of_nat from, Z.of_nat to, length path)).
Proof.
  intros up n a path from to max L1 L2 piece W G M R. unfold n_print, wstep in *. cbv zeta. unfold wstep in *.
  destruct (Z.ltb_spec (Z.of_nat (length path)) (Z.of_nat to)); [lia|]. destruct (Z.leb_spec 0 (Z.of_nat from)); [|lia]. destruct (Z.ltb_spec (Z.of_nat from) (Z.of_nat to)); [|lia].
  cbn [andb]. rewrite !Nat2Z.id. assert (E : firstn to path = firstn from path ++ piece).
  { unfold piece. rewrite <- (firstn_skipn from path) at 1. rewrite firstn_app, firstn_length, firstn_firstn. do 2 f_equal; lia. }
  assert (Es : skipn from (firstn to path) = piece) by (unfold piece; rewrite firstn_skipn_comm; replace (from + (to - from)) with to by lia; reflexivity).
  rewrite Es, E. assert (Lf : length (firstn from path) = from) by (rewrite firstn_length; lia).
  destruct (passes_ok up n a max (length piece) piece (firstn from path) (S (length path))) as (ps & Ec & Eb & Ep & _); try assumption; try lia.
  { unfold piece. rewrite firstn_length, skipn_length. lia. }
  rewrite Lf in Ep. rewrite Ep. cbn [rbind]. assert (Ef : first_of (firstn from path) = (from =? 0)) by (destruct from; [reflexivity|destruct path; [cbn in L2; lia|reflexivity]]). rewrite Ef in *.
  eexists ps, _. split; [reflexivity|]. split; [exact Ec|]. split; [exact Eb|]. cbn [h_c h_s h_d h_i h_range]. rewrite !count_number. split; [reflexivity|].
  destruct (Z.eqb_spec (Z.of_nat from) 0), (Nat.eqb_spec from 0); try lia; destruct (Z.eqb_spec (Z.of_nat to) (Z.of_nat (length path))), (Nat.eqb_spec to (length path)); try lia; reflexivity.
Qed.
Print Assumptions C105_printed.
(** The whole sentence. *)
Theorem C105_whole : forall up n a (path : list (step word)) max, Forall well_formed_step path -> Forall short_gaps path -> 9 < max -> Forall (fun s => 10 + col a s < max) (removelast path) ->
  exists ps h, print (S (length path)) up n a path (Z.of_nat max) = Ok (h, printed up n a true ps) /\ concat ps = path /\ broken a max true ps
    /\ (h_c h, h_s h, h_d h, h_i h) = (number PCorr path, number PSub path, number PDel path, number PIns path) /\ h_range h = None.
Proof.
  intros up n a path max W G M R. destruct path as [|s path].
  - exists [], {| h_range := None; h_c := 0; h_s := 0; h_d := 0; h_i := 0 |}. repeat split.
  - pose proof (C105_printed up n a (s :: path) 0 (length (s :: path)) max) as P. cbv zeta in P. cbn [skipn] in P. rewrite Nat.sub_0_r, firstn_all in P.
    destruct (P ltac:(cbn; lia) ltac:(lia) W G M R) as (ps & h & E & Ec & Eb & Eh & Er). cbn in Er. rewrite Nat.eqb_refl in Er. exists ps, h. split; [exact E|]. split; [exact Ec|]. split; [exact Eb|]. split; [exact Eh|exact Er].
Qed.
Print Assumptions C105_whole.

(** In a set of lines all lines have the same length, and the text of a step is in the same column of all
    of them, if every text fits its column. *)
Theorem C105_columns : forall up n a first p s q t, In t (lines up n a) -> Forall (fun s => length (snd t s) <= col a s) (p ++ s :: q) ->
  length (row a first (p ++ s :: q) t) = width a first (p ++ s :: q)
  /\ firstn (S (col a s)) (skipn (width a first p) (row a first (p ++ s :: q) t)) = fill (col a s) (snd t s) ++ blanks 1.
Proof. intros up n a first p s q t Ht F. pose proof (title_length up n a t Ht). split; [apply row_length|apply row_column]; assumption. Qed.
Print Assumptions C105_columns.
(** The texts of words, stars and marks fit if upper case has the length of the word. *)
Theorem C105_fit : forall up n a s, well_formed_step s -> readable_step up s ->
  length (ref_side up (at_case a) s) <= col a s /\ length (hyp_side up (at_case a) s) <= col a s /\ length (mark s) <= col a s
  /\ In (txt "REF:  ", ref_side up (at_case a)) (lines up n a) /\ In (txt "HYP:  ", hyp_side up (at_case a)) (lines up n a) /\ In (txt "Eval: ", mark) (lines up n a).
Proof.
  intros up n a s W R. destruct (sides up (at_case a) a s W R) as (_ & _ & _ & E & L & _). split; [lia|]. split; [lia|]. split; [exact L|].
  unfold lines. rewrite !in_app_iff. cbn. tauto.
Qed.
Print Assumptions C105_fit.

(** The printed alignment can be read back: for words that are not empty and have no blanks, the lines give
    the words and the judgement of every step. *)
Theorem C105_read : forall up n a path max h out, Forall well_formed_step path -> Forall (readable_step up) path -> Forall short_gaps path -> 9 < max ->
  Forall (fun s => 10 + col a s < max) (removelast path) ->
  print (S (length path)) up n a path (Z.of_nat max) = Ok (h, out) -> read_all (least a) true out = Some (map (meant up (at_case a)) path).
Proof.
  intros up n a path max h out W R G M Rm E. destruct (C105_whole up n a path max W G M Rm) as (ps & h' & E' & Ec & _). rewrite E in E'. injection E' as _ ->.
  rewrite <- Ec in *. apply read_all_ok.
  - clear - W. induction ps as [|p ps IH]; constructor; cbn [concat] in W; apply Forall_app in W; tauto.
  - clear - R. induction ps as [|p ps IH]; constructor; cbn [concat] in R; apply Forall_app in R; tauto.
Qed.
Print Assumptions C105_read.
(** So different alignments are printed differently, if case matters. *)
Definition plain_words (s : step word) : option (list N) * option (list N) * eval := let '(a, b, ev) := s in (option_map w_value a, option_map w_value b, ev).
Theorem C105_injective : forall up n a path path' max h h' out, at_case a = true ->
  Forall well_formed_step path -> Forall (readable_step up) path -> Forall short_gaps path -> Forall (fun s => 10 + col a s < max) (removelast path) ->
  Forall well_formed_step path' -> Forall (readable_step up) path' -> Forall short_gaps path' -> Forall (fun s => 10 + col a s < max) (removelast path') -> 9 < max ->
  print (S (length path)) up n a path (Z.of_nat max) = Ok (h, out) -> print (S (length path')) up n a path' (Z.of_nat max) = Ok (h', out) -> map plain_words path = map plain_words path'.
Proof.
  intros up n a path path' max h h' out C W R G Rm W' R' G' Rm' M E E'.
  pose proof (C105_read _ _ _ _ _ _ _ W R G M Rm E) as A. pose proof (C105_read _ _ _ _ _ _ _ W' R' G' M Rm' E') as A'. rewrite C in *. rewrite A in A'. injection A' as A'.
  assert (X : forall l, map (meant up true) l = map plain_words l).
  { intros l. apply map_ext. intros [[x y] ev]. cbn. destruct x, y, ev; reflexivity. }
  rewrite <- !X. exact A'.
Qed.
Print Assumptions C105_injective.

(** ** What does not hold *)
Definition no_numbers : numbers := {| n_t1 := fun _ => []; n_t2 := fun _ => []; n_conf := fun _ => []; n_weight := fun _ => [] |}.
Definition plain : attribs := {| at_case := false; at_rwtimes := false; at_rconf := false; at_rweight := false; at_hwtimes := false; at_hconf := false; at_hweight := false |}.
Definition upper : list N -> list N := map toupper.
Definition tx (s : string) : word := text_word (txt s).
(** A word that does not fit a line and is not the last one: the program prints empty lines for ever. *)
Theorem C105_endless_refuted : exists (path : list (step word)) max, Forall well_formed_step path /\ Forall short_gaps path /\ 9 < max
  /\ forall fuel, print fuel upper no_numbers plain path (Z.of_nat max) = NoFuel.
Proof.
  set (a := tx "aaaaaaaaaaaaaaaaaaaa"). set (b := tx "b"). set (path := [(Some a, Some a, PCorr); (Some b, Some b, PCorr)]). exists path, 20.
  split; [repeat constructor; cbn; discriminate|]. split; [repeat constructor|]. split; [lia|].
  intros fuel. unfold print, n_print. cbv zeta. assert (H : passes fuel upper no_numbers plain 20 path 0 = NoFuel).
  { induction fuel as [|f IH]; [reflexivity|]. change (passes (S f) upper no_numbers plain 20 path 0) with (let* r := passes f upper no_numbers plain 20 path 0 in Ok (map (row plain true []) (lines upper no_numbers plain) :: r)).
    rewrite IH. reflexivity. }
  change (passes fuel upper no_numbers plain (Z.of_nat 20) _ _) with (passes fuel upper no_numbers plain 20 path 0). rewrite H. reflexivity.
Qed.
Print Assumptions C105_endless_refuted.
(** An inserted word of 41 letters: the stars begin before their array. *)
Theorem C105_stars_refuted : exists (path : list (step word)), Forall well_formed_step path /\ print (S (length path)) upper no_numbers plain path 1000 = Undef.
Proof. exists [(None, Some (text_word (repeat 97%N 41)), PIns)]. split; [repeat constructor; discriminate|vm_compute; reflexivity]. Qed.
Print Assumptions C105_stars_refuted.
(** The last word of a sentence is never moved to a new line: the line can be longer than [max]. *)
Theorem C105_last_word_refuted : exists (path : list (step word)) h ls l, print (S (length path)) upper no_numbers plain path 20 = Ok (h, [ls]) /\ In l ls /\ length path = 2 /\ length l = 29.
Proof.
  exists [(Some (tx "a"), Some (tx "a"), PCorr); (Some (tx "bbbbbbbbbbbbbbbbbbbb"), Some (tx "b"), PSub)]. do 3 eexists. split; [vm_compute; reflexivity|]. split; [left; reflexivity|]. split; reflexivity.
Qed.
Print Assumptions C105_last_word_refuted.
(** The upper case of a word can be longer than the word (in Turkish, i has one byte and its upper case two):
    the lines of a set do not have the same length. *)
Definition turkish_upper (v : list N) : list N := match to_master UTF8 Turkish 0 false None (cstr v) with Ok out => match strlen out with Ok k => firstn k out | _ => [] end | _ => [] end.
Theorem C105_upper_case_refuted : exists (path : list (step word)) h r hy ev, print (S (length path)) turkish_upper no_numbers plain path 100 = Ok (h, [[r; hy; ev]])
  /\ length r <> length ev /\ skipn 6 r = [196; 176; 32; 98; 32]%N /\ skipn 6 ev = txt "S   ".
Proof.
  exists [(Some (tx "i"), Some (tx "e"), PSub); (Some (tx "b"), Some (tx "b"), PCorr)]. do 4 eexists. split; [vm_compute; reflexivity|]. split; [discriminate|]. split; reflexivity.
Qed.
Print Assumptions C105_upper_case_refuted.
(** A number of more than seven characters (a time of 10000 seconds or more) moves the rest of its line. *)
Theorem C105_long_number_refuted : exists n a (path : list (step word)) h ls r t, print (S (length path)) upper n a path 100 = Ok (h, [ls]) /\ hd_error ls = Some r /\ nth_error ls 1 = Some t
  /\ length r <> length t.
Proof.
  exists {| n_t1 := fun _ => txt "12345.67"; n_t2 := fun _ => txt "12345.67"; n_conf := fun _ => []; n_weight := fun _ => [] |},
    {| at_case := false; at_rwtimes := true; at_rconf := false; at_rweight := false; at_hwtimes := false; at_hconf := false; at_hweight := false |},
    [(Some (tx "i"), Some (tx "e"), PSub)]. do 4 eexists. split; [vm_compute; reflexivity|]. split; [reflexivity|]. split; [reflexivity|discriminate].
Qed.
Print Assumptions C105_long_number_refuted.

(** ** The hypotheses are met *)
Definition pra_path : list (step word) :=
  [(Some (tx "the"), Some (tx "the"), PCorr); (Some (tx "quick"), Some (tx "thick"), PSub); (None, Some (tx "fox"), PIns); (Some (tx "is"), None, PDel); (Some (tx "here"), Some (tx "here"), PCorr)].
Lemma upper_readable w : forallb (fun b => (64 <? b)%N && (b <? 128)%N) (w_value w) = true -> w_value w <> [] -> readable upper w.
Proof.
  intros F Ne. rewrite forallb_forall in F. split; [exact Ne|]. split; [intros H; specialize (F _ H); discriminate|]. unfold upper. split; [apply map_length|].
  intros H. apply in_map_iff in H as (b & E & Hb). specialize (F _ Hb). apply andb_prop in F as [F1 F2]. apply N.ltb_lt in F1, F2. unfold toupper in E.
  destruct ((97 <=? b)%N && (b <=? 122)%N) eqn:X; [apply andb_prop in X as [X _]; apply N.leb_le in X; lia|lia].
Qed.
Example C105_ex : Forall well_formed_step pra_path /\ Forall (readable_step upper) pra_path /\ Forall short_gaps pra_path /\ Forall (fun s => 10 + col plain s < 22) (removelast pra_path)
  /\ exists h, print (S (length pra_path)) upper no_numbers plain pra_path 22 = Ok (h,
    [[txt "REF:  the QUICK *** "; txt "HYP:  the THICK FOX "; txt "Eval:     S     I   "]; [txt ">> REF:  IS here "; txt ">> HYP:  ** here "; txt ">> Eval: D       "]])
  /\ (h_c h, h_s h, h_d h, h_i h) = (2, 1, 1, 1).
Proof.
  split; [repeat constructor; discriminate|]. split; [unfold pra_path; do 5 (apply Forall_cons; [split; cbn [fst snd]; try exact I; (apply upper_readable; [reflexivity|cbn; discriminate])|]); constructor|].
  split; [repeat (constructor; [cbn; try exact I; lia|]); constructor|]. split; [cbn [removelast pra_path]; repeat (constructor; [vm_compute; lia|]); constructor|]. eexists. split; vm_compute; reflexivity.
Qed.
Example C105_part_ex : exists h, n_print 6 upper no_numbers plain pra_path 1 3 24 = Ok (h, [[txt ">> REF:  QUICK *** "; txt ">> HYP:  THICK FOX "; txt ">> Eval: S     I   "]]) /\ h_range h = Some (1%Z, 3%Z, 5).
Proof. eexists. split; vm_compute; reflexivity. Qed.
