(** Proofs about the alignment log: groups, rows, columns, the logger. *)
From Coq Require Import String.
From Coq Require Import List ZArith NArith Arith Bool Lia.
From Verif Require Scores_Model Scores_Proofs.
From Verif Require Import Base Sgml_Model Sgml_Proofs1 Clog_Model Clog_Spec Clog_Proofs1.
Import ListNotations.
Local Open Scope list_scope.

(** ** Segments *)
Definition kind_ok (k : list N) : Prop := field_ok k.
Lemma lit_ok (s : list N) : (forallb (fun b => negb (b =? 44) && negb (b =? 10))%N s) = true -> field_ok s.
Proof.
  intros H. rewrite forallb_forall in H. split; intros K; specialize (H _ K); cbn in H; discriminate.
Qed.
Section Reader.
Variable f : list N -> option entry.
Variable type : list N.
Hypothesis T : field_ok type.
Hypothesis G : forall id file chan r h qr qh,
  field_ok file -> field_ok chan -> Forall field_ok r -> Forall field_ok h -> make r = Some qr -> make h = Some qh ->
  good f (line type id file chan (join 44 r) (join 44 h)) (entry_of type id file chan qr qh).
Lemma hyp_good id x : seg_ok (fst x) -> Forall tok_ok (snd x) ->
  Forall2 (good f) (hyp_lines type id x) (entries_of type id (fun q => [no_side; q]) x).
Proof.
  destruct x as [s l]. cbn [fst snd]. intros Hs Hl. pose proof Hs as (_ & F & C). unfold entries_of, sides_of. cbn [fst snd]. unfold hyp_lines.
  assert (K : Forall2 (good f) (map (fun t => line type id (s_file s) (s_chan s) no_csv (csv s t)) l)
     (map (fun q => {| e_kind := type; e_grp := id; e_file := s_file s; e_chan := s_chan s; e_eval := []; e_sides := [no_side; q] |}) (map (side_of s) l))).
  { induction Hl as [|t l Ht Hl IH]; cbn [map]; [constructor|]. constructor; [|exact IH]. rewrite no_csv_join, csv_join.
    apply G; [exact F|exact C|apply no_fields_ok|apply tok_fields_ok; assumption|apply make_no|apply make_tok]. }
  destruct l as [|t l]; [|exact K]. cbn [map]. constructor; [|constructor]. rewrite no_csv_join, seg_csv_join.
  apply G; [exact F|exact C|apply no_fields_ok|apply seg_fields_ok; assumption|apply make_no|apply make_seg].
Qed.
Lemma ref_good id x : seg_ok (fst x) -> Forall tok_ok (snd x) ->
  Forall2 (good f) (ref_lines false type id x) (entries_of type id (fun q => [q; no_side]) x).
Proof.
  destruct x as [s l]. cbn [fst snd]. intros Hs Hl. pose proof Hs as (_ & F & C). unfold entries_of, sides_of. cbn [fst snd]. unfold ref_lines. cbv zeta.
  assert (K : Forall2 (good f) (map (fun t => line type id (s_file s) (s_chan s) (csv s t) no_csv) l)
     (map (fun q => {| e_kind := type; e_grp := id; e_file := s_file s; e_chan := s_chan s; e_eval := []; e_sides := [q; no_side] |}) (map (side_of s) l))).
  { induction Hl as [|t l Ht Hl IH]; cbn [map]; [constructor|]. constructor; [|exact IH]. rewrite no_csv_join, csv_join.
    apply G; [exact F|exact C|apply tok_fields_ok; assumption|apply no_fields_ok|apply make_tok|apply make_no]. }
  destruct l as [|t l]; [|exact K]. cbn [map]. constructor; [|constructor]. rewrite no_csv_join, seg_csv_join.
  apply G; [exact F|exact C|apply seg_fields_ok; assumption|apply no_fields_ok|apply make_seg|apply make_no].
Qed.
Lemma nested {A} (g : A -> list (list N)) (l : list (list A)) : concat (map (fun x => concat (map g x)) l) = flat_map g (concat l).
Proof.
  induction l as [|x l IH]; [reflexivity|]. cbn [map concat]. rewrite IH, flat_map_app, <- flat_map_concat_map. reflexivity.
Qed.
Lemma flat_good {A} (P : A -> Prop) (g : A -> list (list N)) (h : A -> list entry) l :
  (forall x, P x -> Forall2 (good f) (g x) (h x)) -> Forall P l -> Forall2 (good f) (flat_map g l) (flat_map h l).
Proof. intros H F. induction F as [|x l Px F IH]; cbn [flat_map]; [constructor|]. apply Forall2_app; [apply H; exact Px|exact IH]. Qed.
Definition pair_ok (x : seg * list tok) : Prop := seg_ok (fst x) /\ Forall tok_ok (snd x).
Lemma segs_forall l : segs_ok l -> Forall pair_ok (concat l).
Proof. intros H. apply Forall_forall. intros x K. apply in_concat in K. destruct K as (sp & K1 & K2). exact (H sp x K1 K2). Qed.
Lemma hyps_good id l : segs_ok l -> Forall2 (good f) (concat (map (fun l => concat (map (hyp_lines type id) l)) l)) (flat_map (entries_of type id (fun q => [no_side; q])) (concat l)).
Proof. intros H. rewrite nested. apply (flat_good pair_ok); [|apply segs_forall; exact H]. intros x [A1 A2]. apply hyp_good; assumption. Qed.
Lemma refs_good id l : segs_ok l -> Forall2 (good f) (concat (map (fun l => concat (map (ref_lines false type id) l)) l)) (flat_map (entries_of type id (fun q => [q; no_side])) (concat l)).
Proof. intros H. rewrite nested. apply (flat_good pair_ok); [|apply segs_forall; exact H]. intros x [A1 A2]. apply ref_good; assumption. Qed.
End Reader.

Lemma group_good (k : string) g : field_ok (B k) -> group_ok g -> Forall2 (good (read_line names)) (group_lines false (B k) g) (group_entries k g).
Proof.
  intros K [R H]. unfold group_lines, group_entries. apply Forall2_app; [apply refs_good|apply hyps_good]; try assumption; intros; apply line_good; assumption.
Qed.

(** ** Runs with references *)
Lemma shown_completed g : completed g = shown g. Proof. unfold completed, shown. destruct (g_hyps g); reflexivity. Qed.
Lemma shown_ok g : group_ok g -> group_ok (shown g).
Proof.
  intros [R H]. unfold shown. destruct (g_hyps g) eqn:E; [|split; [exact R|rewrite E; rewrite ?E in H; exact H]]. split; [exact R|]. cbn [g_hyps].
  intros sp x [<-|[]] [<-|[]]. split; [|constructor]. repeat split; intros [].
Qed.
Lemma gap_spec g b : empty_gap g = Ok b -> (b = true <-> silent_gap g).
Proof.
  unfold empty_gap, silent_gap. destruct (g_hyps g) as [|h hs]; [|intros [= <-]; split; [discriminate|intros [K _]; discriminate]].
  destruct (g_refs g) as [|sp [|sp2 r]]; [intros [= <-]; split; [discriminate|intros [_ (s & l & r & K & _)]; discriminate]| |
    intros [= <-]; split; [discriminate|intros [_ (s & l & r' & K & _)]; discriminate]].
  destruct sp as [|[s l] r]; [discriminate|]. intros E. injection E as <-. rewrite Scores_Proofs.same_iff. split.
  - intros E. split; [reflexivity|]. exists s, l, r. split; [reflexivity|exact E].
  - intros [_ (s' & l' & r' & K & E)]. injection K as <- <- <-. exact E.
Qed.
Definition speakers_ok (g : group) : Prop := Forall (fun sp => sp <> []) (g_refs g).
Lemma gap_total g : speakers_ok g -> exists b, empty_gap g = Ok b.
Proof.
  intros H. unfold empty_gap. destruct (g_hyps g); [|eexists; reflexivity]. unfold speakers_ok in H. destruct (g_refs g) as [|sp [|sp2 r]]; [eexists; reflexivity| |eexists; reflexivity].
  inversion H as [|? ? H1 H2]; subst. destruct sp as [|[s l] sp]; [congruence|eexists; reflexivity].
Qed.
Lemma no_ok : field_ok (B "NO"). Proof. apply lit_ok. reflexivity. Qed.
Lemma sg_ok : field_ok (B "SG"). Proof. apply lit_ok. reflexivity. Qed.
Lemma ref_log_good skipped gs : Forall (fun g => group_ok g /\ speakers_ok g) gs ->
  exists l es, ref_log skipped gs = Ok l /\ listed skipped gs es /\ Forall2 (good (read_line names)) l es.
Proof.
  induction 1 as [|g gs [Gk Sk] F (l & es & E & L & R)]; [exists [], []; repeat constructor|].
  destruct (gap_total g Sk) as (b & Eb). pose proof (gap_spec g b Eb) as S. cbn [ref_log]. rewrite Eb. cbn [rbind]. rewrite E. cbn [rbind].
  rewrite shown_completed. destruct b.
  - rewrite andb_false_r. cbn [app]. exists l, es. split; [reflexivity|]. split; [|exact R]. apply li_gap; [apply S; reflexivity|exact L].
  - cbn [negb]. rewrite andb_true_r. eexists. exists ((if skipped (shown g) then group_entries "NO" (shown g) else []) ++ group_entries "SG" (shown g) ++ es).
    split; [reflexivity|]. split; [apply li_group; [intros K; apply S in K; discriminate|exact L]|].
    apply Forall2_app; [destruct (skipped (shown g)); [|constructor]|apply Forall2_app; [|exact R]]; apply group_good; try apply no_ok; try apply sg_ok; apply shown_ok; exact Gk.
Qed.
Lemma systems_good skipped ss : Forall (Forall (fun g => group_ok g /\ speakers_ok g)) ss ->
  exists l es, systems_log skipped ss = Ok l /\ Forall2 (listed skipped) ss es /\ Forall2 (good (read_line names)) l (concat es).
Proof.
  induction 1 as [|gs ss F1 F2 (l & es & E & L & R)]; [exists [], []; repeat constructor|].
  destruct (ref_log_good skipped gs F1) as (l1 & e1 & E1 & L1 & R1). cbn [systems_log]. rewrite E1. cbn [rbind]. rewrite E. cbn [rbind].
  exists (l1 ++ l), (e1 :: es). split; [reflexivity|]. split; [constructor; assumption|]. cbn [concat]. apply Forall2_app; assumption.
Qed.
Lemma short_letter r : short r = B (letter r). Proof. destruct r; reflexivity. Qed.
Lemma letter_ok r : field_ok (B (letter r)). Proof. apply lit_ok. destruct r; reflexivity. Qed.
Definition opt_fields (x : option (seg * tok)) : list (list N) := match x with Some (s, t) => tok_fields s t | None => no_fields end.
Lemma opt_make x : make (opt_fields x) = Some (side_of_opt x). Proof. destruct x as [[s t]|]; [apply make_tok|apply make_no]. Qed.
Lemma opt_ok x : said_ok x -> Forall field_ok (opt_fields x).
Proof. destruct x as [[s t]|]; [intros [A1 A2]; apply tok_fields_ok; assumption|intros _; apply no_fields_ok]. Qed.
Lemma opt_ne x : opt_fields x <> []. Proof. destruct x as [[s t]|]; discriminate. Qed.
Lemma yes_ok : field_ok (B "YES"). Proof. apply lit_ok. reflexivity. Qed.
Lemma row_good x : said_ok (r_ref x) -> said_ok (r_hyp x) -> good (read_line names) (row_line x) (row_entry x).
Proof.
  intros R H.
  set (file := match r_ref x, r_hyp x with Some (s, _), _ | None, Some (s, _) => s_file s | None, None => [] end).
  set (chan := match r_ref x, r_hyp x with Some (s, _), _ | None, Some (s, _) => s_chan s | None, None => [] end).
  assert (E : row_line x = join 44 ([B "YES"; int_text (r_grp x); file; chan; B (letter (r_res x))] ++ opt_fields (r_ref x) ++ opt_fields (r_hyp x))).
  { rewrite join_app; [|discriminate|destruct (opt_fields (r_ref x)) eqn:Q; [destruct (opt_ne _ Q)|discriminate]]. rewrite join_app by apply opt_ne.
    unfold row_line. cbv zeta. rewrite short_letter.
    replace (match r_ref x with Some (s, t) => csv s t | None => no_csv end) with (join 44 (opt_fields (r_ref x))) by (destruct (r_ref x) as [[s t]|]; [symmetry; apply csv_join|reflexivity]).
    replace (match r_hyp x with Some (s, t) => csv s t | None => no_csv end) with (join 44 (opt_fields (r_hyp x))) by (destruct (r_hyp x) as [[s t]|]; [symmetry; apply csv_join|reflexivity]).
    match goal with |- context [fst ?p] => replace (fst p) with file by (unfold file; destruct (r_ref x) as [[? ?]|]; [reflexivity|destruct (r_hyp x) as [[? ?]|]; reflexivity]);
       replace (snd p) with chan by (unfold chan; destruct (r_ref x) as [[? ?]|]; [reflexivity|destruct (r_hyp x) as [[? ?]|]; reflexivity]) end.
    comma. change (B "YES,") with (B "YES" ++ [44%N]). unfold join at 3. cbn [map concat]. rewrite ?app_nil_r, <- ?app_assoc. cbn [app]. rewrite <- ?app_assoc. cbn [app]. reflexivity. }
  assert (Ff : field_ok file /\ field_ok chan).
  { unfold file, chan. destruct (r_ref x) as [[s t]|]; [destruct R as [(_ & K) _]; exact K|]. destruct (r_hyp x) as [[s t]|]; [destruct H as [(_ & K) _]; exact K|split; apply nil_ok]. }
  destruct Ff as [F1 F2]. pose proof (five_ok (B "YES") (r_grp x) file chan (B (letter (r_res x))) yes_ok F1 F2 (letter_ok _)) as V. rewrite E. split.
  - apply no_nl. repeat (apply Forall_app; split); [exact V|apply opt_ok; exact R|apply opt_ok; exact H].
  - rewrite (read_fields _ _ _ _ _ _ _ _ _ V (opt_ok _ R) (opt_ok _ H) (opt_make _) (opt_make _)). rewrite atoi_int. reflexivity.
Qed.

(** ** Runs without references *)
Lemma read_eleven r q : make r = Some q -> read_side "Ref" eleven r = Some q.
Proof. unfold make. intros M. do 12 (destruct r as [|? r]; [try discriminate|]); [|discriminate]. rewrite <- M. reflexivity. Qed.
Lemma chunks_ok cs : Forall (fun c : list (list N) => length c = 11) cs -> forall fuel, length cs <= fuel -> chunks fuel (concat cs) = Some cs.
Proof.
  induction 1 as [|c cs L F IH]; intros fuel Hf; [destruct fuel; reflexivity|]. cbn [length] in Hf. destruct fuel as [|k]; [lia|]. cbn [concat].
  assert (E : chunks (S k) (c ++ concat cs) = if 11 <=? length (c ++ concat cs) then option_map (cons (firstn 11 (c ++ concat cs))) (chunks k (skipn 11 (c ++ concat cs))) else None)
    by (destruct c; [discriminate|reflexivity]).
  rewrite E. replace (11 <=? length (c ++ concat cs)) with true by (symmetry; apply Nat.leb_le; rewrite app_length; lia).
  rewrite firstn_app, skipn_app, L, Nat.sub_diag, <- L, firstn_all, skipn_all. cbn [firstn skipn app]. rewrite app_nil_r, IH by lia. reflexivity.
Qed.
Lemma length_concat11 cs : Forall (fun c : list (list N) => length c = 11) cs -> length cs <= length (concat cs).
Proof. induction 1 as [|c cs L F IH]; [apply le_n|]. cbn [concat length]. rewrite app_length. lia. Qed.
Lemma read_generic k g f c e cs qs :
  Forall field_ok [k; g; f; c; e] -> Forall (Forall field_ok) cs -> Forall2 (fun r q => make r = Some q) cs qs ->
  read_generic_line (join 44 ([k; g; f; c; e] ++ concat cs)) = Some {| e_kind := k; e_grp := atoi g; e_file := f; e_chan := c; e_eval := e; e_sides := qs |}.
Proof.
  intros F1 F2 M. unfold read_generic_line. cbv zeta. rewrite split_join; [|discriminate|].
  2:{ apply Forall_app. split; [revert F1; apply Forall_impl; intros a K; exact (proj1 K)|]. apply Forall_concat. revert F2. apply Forall_impl. intros a. apply Forall_impl. intros b K. exact (proj1 K). }
  cbn [app]. assert (L : Forall (fun c : list (list N) => length c = 11) cs).
  { clear - M. induction M as [|r q cs qs E M IH]; constructor; [exact (make_length _ _ E)|exact IH]. }
  rewrite chunks_ok; [|exact L|apply length_concat11; exact L].
  replace (all_of (read_side "Ref" eleven) cs) with (Some qs); [reflexivity|]. clear - M. induction M as [|r q cs qs E M IH]; [reflexivity|].
  cbn [all_of]. rewrite (read_eleven r q E), <- IH. reflexivity.
Qed.
Lemma generic_line_good type id file chan r h qr qh :
  field_ok type -> field_ok file -> field_ok chan -> Forall field_ok r -> Forall field_ok h -> make r = Some qr -> make h = Some qh ->
  good read_generic_line (line type id file chan (join 44 r) (join 44 h)) (entry_of type id file chan qr qh).
Proof.
  intros T F C R H M1 M2. pose proof (make_length _ _ M1) as L1. pose proof (make_length _ _ M2) as L2.
  rewrite line_join; [|destruct r; discriminate|destruct h; discriminate]. pose proof (five_ok type id file chan [] T F C nil_ok) as V. split.
  - apply no_nl. repeat (apply Forall_app; split); assumption.
  - replace (r ++ h) with (concat [r; h]) by (cbn [concat]; rewrite app_nil_r; reflexivity).
    rewrite (read_generic _ _ _ _ _ _ [qr; qh] V); [rewrite atoi_int; reflexivity|repeat constructor; assumption|repeat constructor; assumption].
Qed.
Lemma group_generic_good (k : string) g : field_ok (B k) -> group_ok g -> g_refs g = [] -> Forall2 (good read_generic_line) (group_lines true (B k) g) (group_entries k g).
Proof.
  intros K [_ H] R. unfold group_lines, group_entries. rewrite R. cbn [map concat flat_map app]. apply hyps_good; try assumption. intros; apply generic_line_good; assumption.
Qed.
Lemma cell_fields x : cell_text x = concat (map (cons 44%N) (opt_fields x)).
Proof.
  destruct x as [[s t]|]; [|reflexivity]. unfold cell_text. rewrite csv_join. unfold opt_fields, tok_fields, join. comma. cbn [map concat app]. rewrite ?app_nil_r. cbn [app]. reflexivity.
Qed.
Lemma place_fold c : place c (fst (fold_left place_step c ([], []))) (snd (fold_left place_step c ([], []))).
Proof.
  induction c as [|x c IH] using rev_ind; [right; repeat constructor|]. rewrite fold_left_app. cbn [fold_left]. destruct x as [[s t]|].
  - left. exists c, s, t, []. split; [reflexivity|]. split; [constructor|split; reflexivity].
  - cbn [place_step]. destruct IH as [(a & s & t & b & E & Fb & E1 & E2)|(Fa & E1 & E2)].
    + left. exists a, s, t, (b ++ [None]). split; [rewrite E, <- app_assoc; reflexivity|]. split; [apply Forall_app; split; [exact Fb|repeat constructor]|split; assumption].
    + right. split; [apply Forall_app; split; [exact Fa|repeat constructor]|split; assumption].
Qed.
Lemma place_ok c file chan : Forall said_ok c -> place c file chan -> field_ok file /\ field_ok chan.
Proof.
  intros F [(a & s & t & b & E & _ & -> & ->)|(_ & -> & ->)]; [|split; apply nil_ok]. subst. apply Forall_app in F. destruct F as [_ F]. inversion F as [|? ? K _]; subst. destruct K as [(_ & K) _]. exact K.
Qed.
Lemma column_good id c : Forall said_ok c -> exists e, column_entry id c e /\ good read_generic_line (column_line id c) e.
Proof.
  intros F. pose proof (place_fold c) as P. set (p := fold_left place_step c ([], [])) in *. pose proof (place_ok c _ _ F P) as [P1 P2].
  exists {| e_kind := B "YES"; e_grp := id; e_file := fst p; e_chan := snd p; e_eval := []; e_sides := map side_of_opt c |}.
  split; [repeat split; exact P|].
  assert (E : column_line id c = join 44 ([B "YES"; int_text id; fst p; snd p; []] ++ concat (map opt_fields c))).
  { unfold column_line. cbv zeta. fold p. replace (concat (map cell_text c)) with (concat (map (cons 44%N) (concat (map opt_fields c)))).
    - unfold join. cbn [app map concat]. comma. change (B "YES,") with (B "YES" ++ [44%N]). rewrite <- ?app_assoc. cbn [app]. reflexivity.
    - clear. induction c as [|x c IH]; [reflexivity|]. cbn [map concat]. rewrite map_app, concat_app, IH, cell_fields. reflexivity. }
  pose proof (five_ok (B "YES") id (fst p) (snd p) [] yes_ok P1 P2 nil_ok) as V.
  assert (F2 : Forall (Forall field_ok) (map opt_fields c)) by (clear - F; induction F; cbn [map]; constructor; [apply opt_ok; assumption|assumption]).
  rewrite E. split.
  - apply no_nl. apply Forall_app. split; [exact V|apply Forall_concat; exact F2].
  - rewrite (read_generic _ _ _ _ _ _ (map side_of_opt c) V F2); [rewrite atoi_int; reflexivity|].
    clear. induction c; cbn [map]; constructor; [apply opt_make|assumption].
Qed.
Lemma columns_good id cs : Forall (Forall said_ok) cs -> exists es, Forall2 (column_entry id) cs es /\ Forall2 (good read_generic_line) (map (column_line id) cs) es.
Proof.
  induction 1 as [|c cs Fc F (es & A1 & A2)]; [exists []; repeat constructor|]. destruct (column_good id c Fc) as (e & E1 & E2). exists (e :: es). split; constructor; assumption.
Qed.
Lemma generic_good skipped align gs :
  Forall (fun g => group_ok g /\ g_refs g = [] /\ (skipped g = false -> Forall (Forall said_ok) (align g))) gs ->
  exists es, listed_generic skipped align gs es /\ Forall2 (good read_generic_line) (concat (map (generic_lines skipped align) gs)) es.
Proof.
  induction 1 as [|g gs (Gk & R & A) F (es & L & H)]; [exists []; repeat constructor|]. cbn [map concat]. unfold generic_lines at 1.
  pose proof (group_generic_good "SG" g sg_ok Gk R) as K1. destruct (skipped g) eqn:Sg.
  - exists (group_entries "SG" g ++ group_entries "NO" g ++ es). split; [apply lg_skip; assumption|]. rewrite <- app_assoc. apply Forall2_app; [exact K1|].
    apply Forall2_app; [|exact H]. apply group_generic_good; [apply no_ok|assumption|assumption].
  - destruct (columns_good (g_id g) (align g) (A eq_refl)) as (cs & C1 & C2). exists (group_entries "SG" g ++ cs ++ es). split; [apply lg_take; assumption|].
    rewrite <- app_assoc. apply Forall2_app; [exact K1|apply Forall2_app; assumption].
Qed.

(** ** The logger *)
Lemma marked_line x y : ~ In 10%N x -> marked (x ++ NL ++ y) = (match after (B "[ALIGNMENT] ") x with Some m => [m] | None => [] end) ++ marked y.
Proof. intros H. unfold marked. change (NL ++ y) with (10%N :: y). rewrite split_app by exact H. reflexivity. Qed.
Lemma not_in_app (c : N) a b : ~ In c a -> ~ In c b -> ~ In c (a ++ b).
Proof. intros H1 H2 K. apply in_app_iff in K. tauto. Qed.
Lemma levels k : (0 < k <= 6)%Z -> k = 1%Z \/ k = 2%Z \/ k = 3%Z \/ k = 4%Z \/ k = 5%Z \/ k = 6%Z. Proof. lia. Qed.
Lemma prefix_nl k : ~ In 10%N (prefix k).
Proof.
  unfold prefix. intros K.
  destruct (k =? 1)%Z; [|destruct (k =? 2)%Z; [|destruct (k =? 3)%Z; [|destruct (k =? 4)%Z; [|destruct (k =? 5)%Z; [|destruct (k =? 6)%Z]]]]];
    vm_compute in K; repeat (destruct K as [K|K]; [discriminate|]); exact K.
Qed.
Lemma after_other k m : (0 < k < 6)%Z -> after (B "[ALIGNMENT] ") (prefix k ++ m) = None.
Proof. intros H. destruct (levels k ltac:(lia)) as [->|[->|[->|[->|[->| ->]]]]]; try reflexivity. lia. Qed.
Lemma after_mark m : after (B "[ALIGNMENT] ") (prefix 6 ++ m) = Some m. Proof. reflexivity. Qed.
Lemma log_six k m : log 6 (k, m) = if (k <=? 6)%Z then prefix k ++ m ++ NL else [].
Proof. unfold log. change (6 =? 7)%Z with false. rewrite andb_false_r. cbn [negb]. rewrite andb_true_r. reflexivity. Qed.
Lemma log_seven k m : log 7 (k, m) = if (k =? 6)%Z then prefix k ++ m ++ NL else [].
Proof. unfold log. change (7 =? 7)%Z with true. rewrite andb_true_r. cbn [negb]. rewrite andb_false_r. reflexivity. Qed.
Lemma print_marked level msgs : align_on level = true ->
  Forall (fun m => (0 < fst m <= 6)%Z /\ ~ In 10%N (snd m)) msgs ->
  marked (print level msgs) = map snd (filter (fun m => (fst m =? 6)%Z) msgs).
Proof.
  intros A F. unfold align_on in A. apply orb_true_iff in A. induction F as [|[k m] msgs [H1 H2] F IH]; [reflexivity|].
  cbn [fst snd] in H1, H2. unfold print. cbn [map concat filter fst]. fold (print level msgs).
  assert (P : ~ In 10%N (prefix k ++ m)) by (apply not_in_app; [apply prefix_nl|exact H2]).
  destruct A as [A|A]; apply Z.eqb_eq in A; subst level.
  - rewrite log_six. replace (k <=? 6)%Z with true by (symmetry; apply Z.leb_le; lia). rewrite <- !app_assoc, app_assoc, marked_line by exact P. rewrite IH.
    destruct (k =? 6)%Z eqn:E; [apply Z.eqb_eq in E; subst; rewrite after_mark; reflexivity|]. apply Z.eqb_neq in E. rewrite after_other by lia. reflexivity.
  - rewrite log_seven. destruct (k =? 6)%Z eqn:E; [|exact IH]. apply Z.eqb_eq in E; subst. rewrite <- !app_assoc, app_assoc, marked_line by exact P. rewrite after_mark, IH. reflexivity.
Qed.
Lemma messages_marked level msgs alog : align_on level = true -> messages msgs alog -> Forall (fun l => ~ In 10%N l) alog -> marked (print level msgs) = alog.
Proof.
  intros A [E F] N. rewrite <- E. apply print_marked; [exact A|]. rewrite <- E in N. clear E. rewrite Forall_forall in *. intros [k m] K. cbn [fst snd].
  destruct (F _ K) as [H1 H2]. cbn [fst snd] in *. split; [exact H1|]. destruct (Z.eq_dec k 6) as [->|D]; [|exact (H2 D)].
  apply N. apply in_map_iff. exists (6%Z, m). split; [reflexivity|]. apply filter_In. split; [exact K|reflexivity].
Qed.
Lemma print_off level msgs alog : (level <= 5)%Z -> messages msgs alog -> marked (print level msgs) = [].
Proof.
  intros A [_ F]. induction F as [|[k m] msgs [H1 H2] F IH]; [reflexivity|]. cbn [fst snd] in H1, H2. unfold print. cbn [map concat]. fold (print level msgs).
  unfold log. replace (level =? 7)%Z with false by (symmetry; apply Z.eqb_neq; lia). rewrite andb_false_r. cbn [negb]. rewrite andb_true_r.
  destruct (k <=? level)%Z eqn:E; [|exact IH]. apply Z.leb_le in E. rewrite <- !app_assoc, app_assoc, marked_line; [|apply not_in_app; [apply prefix_nl|apply H2; lia]].
  rewrite after_other by lia. exact IH.
Qed.
Lemma good_all f l es : Forall2 (good f) l es -> all_of f l = Some es /\ Forall (fun x => ~ In 10%N x) l.
Proof. induction 1 as [|x e l es [N E] F [IH1 IH2]]; [split; constructor|]. split; [cbn [all_of]; rewrite E, IH1; reflexivity|constructor; assumption]. Qed.
Lemma read_log_marked text l : marked text = header :: l -> read_log text = all_of (read_line names) l.
Proof. intros E. unfold read_log. rewrite E. unfold names. reflexivity. Qed.
Lemma read_generic_marked text l : marked text = generic_header :: l -> read_generic_log text = all_of read_generic_line l.
Proof.
  intros E. unfold read_generic_log. rewrite E.
  assert (Q : list_eqb generic_header (join 44 five ++ B "[," ++ join 44 eleven ++ B "]*") = true) by (vm_compute; reflexivity). rewrite Q. reflexivity.
Qed.
Lemma header_nl : ~ In 10%N header.
Proof. intros K. vm_compute in K. repeat (destruct K as [K|K]; [discriminate|]). exact K. Qed.
Lemma generic_header_nl : ~ In 10%N generic_header.
Proof. intros K. vm_compute in K. repeat (destruct K as [K|K]; [discriminate|]). exact K. Qed.
