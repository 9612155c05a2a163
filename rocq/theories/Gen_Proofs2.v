From Coq Require Import String.
From Coq Require Import List ZArith NArith Arith Bool Lia.
From Verif Require Import Base Sgml_Model Sgml_Proofs1 Skip_Model Gen_Model Gen_Spec Gen_Proofs1.
Import ListNotations.
Local Open Scope list_scope.

Lemma fixed_value k z : value_ok (fixed k z).
Proof.
  eapply Forall_impl; [|apply fixed_bytes]. cbv beta. intros b H. unfold numeric, isd in H. repeat split; lia.
Qed.
Definition read_elem (body : list N) : option tag :=
  match span_name body with
  | ([], _) => None
  | (n, r) => match read_attrs After r with Some (a, false) => Some (Open n a) | Some (a, true) => Some (Single n a) | None => None end
  end.
Ltac nm := split; [discriminate|repeat constructor].

(** ** One word *)
Definition word_attrs (t : option tok) : list (list N * list N) :=
  match t with
  | Some t =>
      (if (0 <=? k_t1 t)%Z then [(B "bt", fixed 3 (k_t1 t))] else []) ++ (if (0 <=? k_t2 t)%Z then [(B "et", fixed 3 (k_t2 t))] else [])
      ++ (match k_conf t with Some c => [(B "conf", fixed 6 c)] | None => [] end)
      ++ (if not_empty (k_spkr t) then [(B "speaker", k_spkr t)] else []) ++ [(B "input", k_title t)]
  | None => []
  end.
Definition word_text (t : option tok) : list N := match t with Some t => k_text t | None => [] end.
Definition word_elem (t : option tok) : xml := Elem (B "word") (word_attrs t) (match word_text t with [] => [] | _ => [Text (word_text t)] end).
Definition word_body (t : option tok) : list N :=
  B "word" ++ (match t with
      | Some t =>
          flag_attr (0 <=? k_t1 t)%Z "bt" (fixed 3 (k_t1 t)) ++ flag_attr (0 <=? k_t2 t)%Z "et" (fixed 3 (k_t2 t))
          ++ (match k_conf t with Some c => attr "conf" (fixed 6 c) | None => [] end)
          ++ flag_attr (not_empty (k_spkr t)) "speaker" (k_spkr t) ++ attr "input" (k_title t)
      | None => []
      end).
Definition opt_ok (t : option tok) : Prop := match t with Some t => tok_ok t | None => True end.
Lemma word_scan t : opt_ok t -> scan false (word_body t) = Some false.
Proof.
  intros K. unfold word_body. rewrite (scan_app (B "word") _ false false eq_refl). destruct t as [t|]; [|reflexivity].
  destruct K as (_ & K1 & K2 & _).
  rewrite (scan_app _ _ _ _ (scan_flag _ "bt" _ eq_refl (fun _ => fixed_value 3 _))).
  rewrite (scan_app _ _ _ _ (scan_flag _ "et" _ eq_refl (fun _ => fixed_value 3 _))).
  rewrite (scan_app (match k_conf t with Some c => _ | None => _ end) _ false false).
  - rewrite (scan_app _ _ _ _ (scan_flag _ "speaker" _ eq_refl (fun _ => K1))). apply scan_attr; [reflexivity|exact K2].
  - destruct (k_conf t); [apply scan_attr; [reflexivity|apply fixed_value]|reflexivity].
Qed.
Lemma word_tag t : opt_ok t -> read_tag (word_body t) = Some (Open (B "word") (word_attrs t)).
Proof.
  intros K. unfold word_body.
  set (x := match t with Some _ => _ | None => _ end).
  assert (E : read_attrs After x = Some (word_attrs t, false)).
  { subst x. destruct t as [t|]; [|reflexivity]. destruct K as (_ & K1 & K2 & _).
    rewrite read_flag by (try nm; intros _; apply fixed_value). rewrite read_flag by (try nm; intros _; apply fixed_value).
    assert (C : forall r, read_attrs After ((match k_conf t with Some c => attr "conf" (fixed 6 c) | None => [] end) ++ r)
      = option_map (fun y => ((match k_conf t with Some c => [(B "conf", fixed 6 c)] | None => [] end) ++ fst y, snd y)) (read_attrs After r)).
    { intros r. destruct (k_conf t) as [c|]; [apply read_attr; [nm|apply value_q, fixed_value]|]. cbn [app]. destruct (read_attrs After r) as [[? ?]|]; reflexivity. }
    rewrite C, read_flag by (try nm; intros _; exact K1). rewrite <- (app_nil_r (attr "input" (k_title t))), read_attr by (try nm; apply value_q; exact K2).
    cbn [read_attrs option_map fst snd]. reflexivity. }
  change (read_tag (B "word" ++ x)) with (read_elem (B "word" ++ x)). unfold read_elem. rewrite (span_names (B "word") x).
  - rewrite E. reflexivity.
  - repeat constructor.
  - subst x. destruct t as [t|]; [|exact I]. destruct (0 <=? k_t1 t)%Z; [reflexivity|]. destruct (0 <=? k_t2 t)%Z; [reflexivity|]. destruct (k_conf t); [reflexivity|]. destruct (not_empty (k_spkr t)); reflexivity.
Qed.
Definition word_pieces (t : option tok) : list piece := Tag (word_body t) :: chars (word_text t) ++ [Tag (B "/word")].
Lemma word_line_eq t : word_line t = [9%N; 9%N] ++ (60%N :: word_body t ++ 62%N :: word_text t ++ 60%N :: B "/word" ++ [62%N]) ++ [10%N].
Proof.
  unfold word_line, word_body, TAB, NL, word_text. cbn [app]. repeat f_equal. 
  change (B ">") with [62%N]. change (B "</word>") with (60%N :: B "/word" ++ [62%N]). rewrite <- !app_assoc. cbn [app]. rewrite <- !app_assoc. reflexivity.
Qed.
Lemma word_gives t : opt_ok t -> gives (word_line t) (word_pieces t).
Proof.
  intros K. rewrite word_line_eq. change (word_pieces t) with ([] ++ word_pieces t). apply gives_app; [apply gives_blanks; reflexivity|].
  rewrite <- (app_nil_r (word_pieces t)). apply gives_app; [|apply gives_blanks; reflexivity].
  apply gives_element; [apply word_scan, K| |reflexivity]. destruct t as [t|]; [exact (proj1 K)|constructor].
Qed.
Lemma word_adds t : opt_ok t -> adds (word_pieces t) [word_elem t].
Proof. intros K. apply (adds_element _ (B "word")); [apply word_tag, K|apply adds_chars]. Qed.
Lemma blank_word_eq : blank_word = word_line None.
Proof. reflexivity. Qed.

(** ** One column *)
Definition col_attrs (c : column) : list (list N * list N) :=
  (if not_empty (fst (place_of c)) then [(B "file", fst (place_of c))] else [])
  ++ (if not_empty (snd (place_of c)) then [(B "channel", snd (place_of c))] else []).
Definition padded (n : nat) (c : column) : column := c ++ repeat None (n - length c).
Definition col_elem (n : nat) (c : column) : xml := Elem (B "putative") (col_attrs c) (map word_elem (padded n c)).
Definition col_body (c : column) : list N :=
  B "putative" ++ flag_attr (not_empty (fst (place_of c))) "file" (fst (place_of c)) ++ flag_attr (not_empty (snd (place_of c))) "channel" (snd (place_of c)).
Definition place_from (p : list N * list N) (c : column) := fold_left place_step c p.
Lemma place_ok c p : value_ok (fst p) -> value_ok (snd p) -> column_ok c ->
  value_ok (fst (place_from p c)) /\ value_ok (snd (place_from p c)).
Proof.
  unfold place_from. revert p. induction c as [|t c IH]; intros p A C K; [split; assumption|]. cbn [fold_left].
  assert (K' : column_ok c) by (intros x I; apply K; right; exact I).
  destruct t as [t|]; cbn [place_step]; [|apply IH; assumption].
  destruct (K t ltac:(left; reflexivity)) as (_ & _ & _ & K1 & K2). apply IH; assumption.
Qed.
Lemma padded_text n c : concat (map word_line c) ++ (if length c <? n then concat (repeat blank_word (n - length c)) else []) = concat (map word_line (padded n c)).
Proof.
  unfold padded. rewrite map_app, concat_app. f_equal. destruct (Nat.ltb_spec (length c) n).
  - rewrite blank_word_eq. induction (n - length c) as [|k IH]; [reflexivity|]. cbn [repeat map concat]. rewrite IH. reflexivity.
  - replace (n - length c) with 0 by lia. reflexivity.
Qed.
Lemma padded_ok n c : column_ok c -> forall t, In t (padded n c) -> opt_ok t.
Proof.
  intros K t I. apply in_app_iff in I as [I|I]; [destruct t as [t|]; [exact (K t I)|exact Logic.I]|].
  apply repeat_spec in I. subst. exact Logic.I.
Qed.
Definition col_pieces (n : nat) (c : column) : list piece := Tag (col_body c) :: concat (map word_pieces (padded n c)) ++ [Tag (B "/putative")].
Lemma col_scan c : column_ok c -> scan false (col_body c) = Some false.
Proof.
  intros K. destruct (place_ok c ([], []) ltac:(constructor) ltac:(constructor) K) as [A C].
  unfold col_body. rewrite (scan_app (B "putative") _ false false eq_refl), (scan_app _ _ _ _ (scan_flag _ "file" _ eq_refl (fun _ => A))).
  apply scan_flag; [reflexivity|intros _; exact C].
Qed.
Lemma col_tag c : column_ok c -> read_tag (col_body c) = Some (Open (B "putative") (col_attrs c)).
Proof.
  intros K. destruct (place_ok c ([], []) ltac:(constructor) ltac:(constructor) K) as [A C]. unfold col_body, col_attrs.
  change (place_from ([], []) c) with (place_of c) in *. set (p := place_of c) in *. clearbody p.
  set (x := flag_attr _ "file" _ ++ _).
  assert (E : read_attrs After x = Some ((if not_empty (fst p) then [(B "file", fst p)] else []) ++ (if not_empty (snd p) then [(B "channel", snd p)] else []), false)).
  { subst x. rewrite read_flag by (try nm; intros _; exact A). rewrite <- (app_nil_r (flag_attr _ "channel" _)), read_flag by (try nm; intros _; exact C).
    cbn [read_attrs option_map fst snd]. rewrite app_nil_r. reflexivity. }
  change (read_tag (B "putative" ++ x)) with (read_elem (B "putative" ++ x)). unfold read_elem. rewrite (span_names (B "putative") x).
  - rewrite E. reflexivity.
  - repeat constructor.
  - subst x. destruct (not_empty (fst p)); [reflexivity|]. destruct (not_empty (snd p)); [reflexivity|exact I].
Qed.
Lemma col_text_eq n c : column_text n c = [9%N] ++ (60%N :: col_body c ++ [62%N]) ++ [10%N] ++ concat (map word_line (padded n c)) ++ [9%N] ++ (60%N :: B "/putative" ++ [62%N]) ++ [10%N].
Proof.
  rewrite <- padded_text. unfold column_text, col_body, TAB, NL. cbv zeta. cbn [app]. repeat f_equal.
  change (B ">") with [62%N]. change (B "</putative>") with (60%N :: B "/putative" ++ [62%N]). rewrite <- !app_assoc. cbn [app]. rewrite <- !app_assoc. reflexivity.
Qed.
Lemma col_gives n c : column_ok c -> gives (column_text n c) (col_pieces n c).
Proof.
  intros K. rewrite col_text_eq.
  change (col_pieces n c) with ([] ++ [Tag (col_body c)] ++ [] ++ concat (map word_pieces (padded n c)) ++ [] ++ [Tag (B "/putative")] ++ []).
  apply gives_app; [apply gives_blanks; reflexivity|]. apply gives_app; [apply gives_tag, col_scan, K|].
  apply gives_app; [apply gives_blanks; reflexivity|].
  apply gives_app. { apply gives_concat. intros t I. apply word_gives, (padded_ok n c K t I). }
  apply gives_app; [apply gives_blanks; reflexivity|]. apply gives_app; [apply gives_tag; reflexivity|apply gives_blanks; reflexivity].
Qed.
Lemma concat_single {A C} (f : A -> C) l : concat (map (fun x => [f x]) l) = map f l.
Proof. induction l; cbn; [|f_equal]; auto. Qed.
Lemma col_adds n c : column_ok c -> adds (col_pieces n c) [col_elem n c].
Proof.
  intros K. apply (adds_element _ (B "putative")); [apply col_tag, K|]. rewrite <- (concat_single word_elem).
  apply adds_concat. intros t I. apply word_adds, (padded_ok n c K t I).
Qed.

(** ** The systems *)
Definition input_body (s : list N * list N) : list N := B "input" ++ attr "title" (fst s) ++ attr "filename" (snd s) ++ B " /".
Definition input_elem (s : list N * list N) : xml := Elem (B "input") [(B "title", fst s); (B "filename", snd s)] [].
Lemma input_eq s : input_line s = [9%N] ++ (60%N :: input_body s ++ [62%N]) ++ [10%N].
Proof.
  unfold input_line, input_body, TAB, NL. cbn [app]. repeat f_equal. change (B " />") with (B " /" ++ [62%N]). rewrite <- !app_assoc. reflexivity.
Qed.
Lemma input_gives s : system_ok s -> gives (input_line s) [Tag (input_body s)].
Proof.
  intros [A C]. rewrite input_eq. change [Tag (input_body s)] with ([] ++ [Tag (input_body s)] ++ []).
  apply gives_app; [apply gives_blanks; reflexivity|]. apply gives_app; [|apply gives_blanks; reflexivity]. apply gives_tag.
  unfold input_body. rewrite (scan_app (B "input") _ false false eq_refl), (scan_app _ _ _ _ (scan_attr "title" _ eq_refl A)), (scan_app _ _ _ _ (scan_attr "filename" _ eq_refl C)). reflexivity.
Qed.
Lemma input_adds s : system_ok s -> adds [Tag (input_body s)] [input_elem s].
Proof.
  intros [A C]. apply adds_single. unfold input_body.
  set (x := attr "title" _ ++ _).
  assert (E : read_attrs After x = Some ([(B "title", fst s); (B "filename", snd s)], true)).
  { subst x. rewrite read_attr by (try nm; apply value_q, A). rewrite read_attr by (try nm; apply value_q, C). reflexivity. }
  change (read_tag (B "input" ++ x) = Some (Single (B "input") [(B "title", fst s); (B "filename", snd s)])).
  change (read_tag (B "input" ++ x)) with (read_elem (B "input" ++ x)). unfold read_elem. rewrite (span_names (B "input") x).
  - rewrite E. reflexivity.
  - repeat constructor.
  - reflexivity.
Qed.

(** ** The document *)
Definition head_body : list N := B "?xml version=" ++ QUOTE ++ B "1.0" ++ QUOTE ++ B " encoding=" ++ QUOTE ++ B "UTF-8" ++ QUOTE ++ B "?".
Lemma report_eq systems l : report_text systems l =
  (60%N :: head_body ++ [62%N]) ++ [10%N] ++ (60%N :: B "rover" ++ [62%N]) ++ [10%N] ++ concat (map input_line systems)
  ++ concat (map (column_text (length systems)) (concat l)) ++ (60%N :: B "/rover" ++ [62%N]) ++ [10%N].
Proof.
  unfold report_text. assert (E : concat (map (fun g => concat (map (column_text (length systems)) g)) l) = concat (map (column_text (length systems)) (concat l))).
  { clear. induction l as [|g l IH]; [reflexivity|]. cbn [map concat]. rewrite map_app, concat_app, IH. reflexivity. }
  rewrite E. reflexivity.
Qed.
Lemma document_read systems l : Forall system_ok systems -> (forall c, In c (concat l) -> column_ok c) ->
  document (report_text systems l) = Some (Elem (B "rover") [] (map input_elem systems ++ map (col_elem (length systems)) (concat l))).
Proof.
  intros S K. set (p := concat (map (fun s => [Tag (input_body s)]) systems) ++ concat (map (col_pieces (length systems)) (concat l))).
  assert (G : gives (report_text systems l) ([Tag head_body] ++ [] ++ [Tag (B "rover")] ++ [] ++ concat (map (fun s => [Tag (input_body s)]) systems)
     ++ concat (map (col_pieces (length systems)) (concat l)) ++ [Tag (B "/rover")] ++ [])).
  { rewrite report_eq. apply gives_app; [apply gives_tag; reflexivity|]. apply gives_app; [apply gives_blanks; reflexivity|].
    apply gives_app; [apply gives_tag; reflexivity|]. apply gives_app; [apply gives_blanks; reflexivity|].
    apply gives_app. { apply gives_concat. intros s I. rewrite Forall_forall in S. apply input_gives, S, I. }
    apply gives_app. { apply gives_concat. intros c I. apply col_gives, K, I. }
    apply gives_app; [apply gives_tag; reflexivity|apply gives_blanks; reflexivity]. }
  assert (D : adds ([Tag head_body] ++ [] ++ [Tag (B "rover")] ++ [] ++ concat (map (fun s => [Tag (input_body s)]) systems)
     ++ concat (map (col_pieces (length systems)) (concat l)) ++ [Tag (B "/rover")] ++ [])
     ([] ++ [Elem (B "rover") [] (map input_elem systems ++ map (col_elem (length systems)) (concat l))])).
  { apply adds_app; [apply adds_instruction; reflexivity|]. cbn [app]. rewrite app_assoc. apply (adds_element (B "rover") (B "rover")); [reflexivity|].
    apply adds_app.
    - rewrite <- (concat_single input_elem). apply adds_concat. intros s I. rewrite Forall_forall in S. apply input_adds, S, I.
    - rewrite <- (concat_single (col_elem (length systems))). apply adds_concat. intros c I. apply col_adds, K, I. }
  unfold document. destruct (G [] [] eq_refl) as (acc & A & E). rewrite app_nil_r in E. rewrite E. cbn [lex]. rewrite (flush_blanks acc A). cbn [option_map].
  rewrite (D [] [] [] [] []). reflexivity.
Qed.

(** ** Its content *)
Lemma word_back t : word_of (word_elem t) = Some (word_for t).
Proof.
  destruct t as [t|]; [|reflexivity]. unfold word_of, word_elem. rewrite list_eqb_refl. cbn [word_for]. unfold said, some_time.
  cbn [word_attrs word_text].
  destruct (0 <=? k_t1 t)%Z, (0 <=? k_t2 t)%Z, (k_conf t) as [c|], (k_spkr t) as [|b s]; cbn [not_empty app];
    unfold get; cbn [find fst]; repeat match goal with |- context [list_eqb ?a ?b] => let v := eval vm_compute in (list_eqb a b) in change (list_eqb a b) with v end;
    cbn [number]; rewrite ?atof_in_fixed; destruct (k_text t); reflexivity.
Qed.
Lemma words_back l : all_of word_of (map word_elem l) = Some (map word_for l).
Proof. induction l as [|t l IH]; [reflexivity|]. cbn [map all_of]. rewrite word_back, IH. reflexivity. Qed.
Lemma place_spec c p : place_from p c = p /\ Forall (fun x => x = None) c \/
  exists a t b, c = a ++ Some t :: b /\ Forall (fun x => x = None) b /\ place_from p c = (k_file t, k_chan t).
Proof.
  unfold place_from. revert p. induction c as [|t c IH]; intros p; [left; split; [reflexivity|constructor]|]. cbn [fold_left].
  destruct (IH (place_step p t)) as [[E F]|(a & u & b & -> & F & E)].
  - destruct t as [t|]; cbn [place_step] in *.
    + right. exists [], t, c. rewrite E. auto.
    + left. split; [exact E|constructor; auto].
  - right. exists (t :: a), u, b. auto.
Qed.
Definition slot_made (n : nat) (c : column) : slot :=
  {| s_file := some_text (fst (place_of c)); s_chan := some_text (snd (place_of c)); s_words := map word_for (padded n c) |}.
Lemma slot_back n c : slot_of (col_elem n c) = Some (slot_made n c).
Proof.
  unfold slot_of, col_elem. rewrite list_eqb_refl, words_back. unfold slot_made, col_attrs.
  destruct (fst (place_of c)) as [|x f], (snd (place_of c)) as [|y h]; cbn [not_empty app]; unfold get; cbn [find fst];
    repeat match goal with |- context [list_eqb ?a ?b] => let v := eval vm_compute in (list_eqb a b) in change (list_eqb a b) with v end; reflexivity.
Qed.
Lemma slots_back n l : all_of slot_of (map (col_elem n) l) = Some (map (slot_made n) l).
Proof. induction l as [|t l IH]; [reflexivity|]. cbn [map all_of]. rewrite slot_back, IH. reflexivity. Qed.
Lemma slot_made_for n c : slot_for n c (slot_made n c).
Proof.
  split.
  - cbn [slot_made s_file s_chan]. destruct (place_spec c ([], [])) as [[E F]|(a & t & b & H & F & E)]; change (place_from ([], []) c) with (place_of c) in E; rewrite E.
    + right. auto.
    + left. exists a, t, b. auto.
  - cbn [slot_made s_words]. unfold padded. rewrite map_app. f_equal. induction (n - length c) as [|k IH]; [reflexivity|]. cbn [repeat map]. rewrite IH. reflexivity.
Qed.
Lemma parts_back n systems l : parts_of (map input_elem systems ++ map (col_elem n) l) = Some (systems, map (slot_made n) l).
Proof.
  induction systems as [|[t f] s IH]; cbn [map app].
  - destruct l as [|c l]; [reflexivity|]. cbn [map parts_of]. unfold input_of at 1. unfold col_elem at 1.
    assert (E : (match map word_elem (padded n c) with [] => if list_eqb (B "putative") (B "input") then match get "title" (col_attrs c), get "filename" (col_attrs c) with Some t, Some f => Some (t, f) | _, _ => None end else None | _ => @None (list N * list N) end) = None) by (destruct (map word_elem (padded n c)); reflexivity).
    rewrite E. change (col_elem n c :: map (col_elem n) l) with (map (col_elem n) (c :: l)). rewrite slots_back. reflexivity.
  - cbn [parts_of]. rewrite IH. reflexivity.
Qed.
Lemma report_read systems l : Forall system_ok systems -> (forall c, In c (concat l) -> column_ok c) ->
  exists slots, read_report (report_text systems l) = Some (systems, slots) /\ Forall2 (slot_for (length systems)) (concat l) slots.
Proof.
  intros S K. exists (map (slot_made (length systems)) (concat l)). split.
  - unfold read_report. rewrite (document_read systems l S K), list_eqb_refl. apply parts_back.
  - generalize (concat l). intros m. induction m as [|c m IH]; cbn [map]; constructor; [apply slot_made_for|exact IH].
Qed.
