(** Proofs about the lines of an STM file. *)
From Coq Require Import String List NArith ZArith Arith Bool Ascii Lia.
From Verif Require Import Base Store_Model Store_Proofs Segm_Model Links_Model Alt_Model Alt_Spec AsTrn_Model AsTrn_Spec AsTrn_Proofs AsStm_Model AsStm_Spec.
Import ListNotations.
Local Open Scope res_scope.
Local Notation length := List.length.

(** ** Words *)
Lemma isspace_iff c : isspace c = true <-> blank c.
Proof. unfold isspace, blank. rewrite orb_true_iff, andb_true_iff, N.eqb_eq, !N.leb_le. lia. Qed.
Lemma isspace_not c : ~ blank c -> isspace c = false.
Proof. intros H. destruct (isspace c) eqn:E; [apply isspace_iff in E; contradiction|reflexivity]. Qed.
Lemma pieces_blank sep s r : Forall (fun c => sep c = true) s -> pieces sep [] (s ++ r) = pieces sep [] r.
Proof. induction 1 as [|c s H F IH]; [reflexivity|]. cbn [app pieces]. rewrite H. exact IH. Qed.
Lemma pieces_word sep w : forall cur r, Forall (fun c => sep c = false) w -> pieces sep cur (w ++ r) = pieces sep (cur ++ w) r.
Proof.
  induction w as [|c w IH]; intros cur r F; [rewrite app_nil_r; reflexivity|]. inversion F as [|? ? H F1]; subst. cbn [app pieces]. rewrite H, IH by exact F1. rewrite <- app_assoc. reflexivity.
Qed.
Lemma pieces_sep sep c r p : sep c = true -> forall cur, pieces sep cur (p ++ c :: r) = pieces sep cur p ++ pieces sep [] r.
Proof.
  intros H. induction p as [|x p IH]; intros cur; cbn [app pieces].
  - rewrite H. destruct cur; reflexivity.
  - destruct (sep x); [|apply IH]. destruct cur; rewrite IH; reflexivity.
Qed.
Lemma pieces_spaced l ws : spaced l ws -> pieces isspace [] l = ws.
Proof.
  assert (B : forall s, Forall blank s -> Forall (fun c => isspace c = true) s) by (intros s F; eapply Forall_impl; [|exact F]; intros c; apply isspace_iff).
  assert (W : forall w, Forall (fun c => ~ blank c) w -> Forall (fun c => isspace c = false) w) by (intros s F; eapply Forall_impl; [|exact F]; intros c; apply isspace_not).
  induction 1 as [s F|s w F (NE & FW)|s w c r ws F (NE & FW) Bc S IH].
  - rewrite <- (app_nil_r s), pieces_blank by auto. reflexivity.
  - rewrite pieces_blank by auto. rewrite <- (app_nil_r w), pieces_word by auto. rewrite app_nil_r. cbn [app pieces]. destruct w; [congruence|reflexivity].
  - rewrite pieces_blank by auto. rewrite pieces_sep by (apply isspace_iff, Bc). rewrite <- (app_nil_r w) at 1. rewrite pieces_word by auto. cbn [app pieces]. apply isspace_iff in Bc. cbn [pieces] in IH. rewrite Bc in IH.
    destruct w as [|x w]; [congruence|]. cbn [app]. rewrite IH. reflexivity.
Qed.
Lemma pieces_two sep p r : sep (last p 0%N) = true -> p <> [] -> pieces sep [] (p ++ r) = pieces sep [] p ++ pieces sep [] r.
Proof.
  intros H NE. destruct (exists_last NE) as (q & c & ->). rewrite last_last in H. rewrite <- app_assoc. cbn [app]. rewrite !pieces_sep by exact H. cbn [pieces]. rewrite app_nil_r. reflexivity.
Qed.
Lemma pieces_same s1 s2 l : Forall (fun c => s1 c = s2 c) l -> forall cur, pieces s1 cur l = pieces s2 cur l.
Proof. induction 1 as [|c l H F IH]; intros cur; [reflexivity|]. cbn [pieces]. rewrite H. destruct (s2 c); [destruct cur; rewrite IH; reflexivity|apply IH]. Qed.
Lemma pieces_chars sep (P : N -> Prop) l : Forall P l -> forall cur, Forall P cur -> Forall (fun w => Forall P w) (pieces sep cur l).
Proof.
  induction 1 as [|c l H F IH]; intros cur FC; cbn [pieces].
  - destruct cur; constructor; [exact FC|constructor].
  - destruct (sep c); [destruct cur; [apply IH, FC|constructor; [exact FC|apply IH; constructor]]|]. apply IH, Forall_app. split; [exact FC|constructor; [exact H|constructor]].
Qed.

(** ** Places *)
Lemma starts_iff p : forall l, starts p l = true <-> exists r, l = p ++ r.
Proof.
  induction p as [|a p IH]; intros l; cbn [starts]; [split; [intros _; exists l; reflexivity|reflexivity]|]. destruct l as [|b l]; [split; [discriminate|intros (r & E); discriminate]|].
  rewrite andb_true_iff, N.eqb_eq, IH. split; [intros (-> & r & ->); exists r; reflexivity|intros (r & E); injection E as -> ->; eauto].
Qed.
Lemma find_sub_first p : forall x l, first_place p x l -> find_sub x l = Some (length p).
Proof.
  induction p as [|c p IH]; intros x l ((r & E) & MIN).
  - replace (find_sub x l) with (if starts x l then Some 0 else match l with [] => None | _ :: r => option_map S (find_sub x r) end) by (destruct l; reflexivity). replace (starts x l) with true by (symmetry; apply starts_iff; exists r; exact E). reflexivity.
  - subst l. cbn [app find_sub]. destruct (starts x (c :: p ++ x ++ r)) eqn:S.
    + apply starts_iff in S. destruct S as (r' & S). specialize (MIN [] r' S). cbn in MIN. lia.
    + rewrite (IH x (p ++ x ++ r)); [reflexivity|]. split; [exists r; reflexivity|]. intros q r' E. specialize (MIN (c :: q) r'). cbn [app] in MIN. rewrite <- E in MIN. specialize (MIN eq_refl). cbn in MIN. lia.
Qed.
Lemma find_sub_some x l k : find_sub x l = Some k -> exists q r, l = q ++ x ++ r.
Proof.
  revert k. induction l as [|c l IH]; intros k H; cbn [find_sub] in H; (destruct (starts x _) eqn:S; [apply starts_iff in S; destruct S as (r & ->); exists [], r; reflexivity|]); [discriminate|].
  destruct (find_sub x l) as [j|]; [|discriminate]. destruct (IH j eq_refl) as (q & r & ->). exists (c :: q), r. reflexivity.
Qed.
Lemma find_sub_none x l : find_sub x l = None -> forall q r, l <> q ++ x ++ r.
Proof.
  induction l as [|c l IH]; intros H q r E.
  - cbn [find_sub] in H. destruct (starts x []) eqn:S; [discriminate|]. symmetry in E. apply app_eq_nil in E. destruct E as (-> & E). assert (K : starts x [] = true) by (apply starts_iff; exists r; symmetry; exact E). congruence.
  - cbn [find_sub] in H. destruct (starts x (c :: l)) eqn:S; [discriminate|]. destruct (find_sub x l) eqn:F; [discriminate|]. destruct q as [|d q]; [assert (K : starts x (c :: l) = true) by (apply starts_iff; exists r; exact E); congruence|].
    cbn [app] in E. injection E as -> ->. exact (IH eq_refl q r eq_refl).
Qed.
Lemma find_char_none c l : ~ In c l -> find_sub [c] l = None.
Proof.
  intros H. destruct (find_sub [c] l) eqn:E; [|reflexivity]. destruct (find_sub_some _ _ _ E) as (q & r & ->). exfalso. apply H. apply in_app_iff. right. left. reflexivity.
Qed.
Lemma find_char_at c p r : ~ In c p -> find_sub [c] (p ++ c :: r) = Some (length p).
Proof.
  intros H. apply find_sub_first. split; [exists r; reflexivity|]. intros q r' E. destruct (le_lt_dec (length p) (length q)) as [L|L]; [exact L|]. exfalso. apply H.
  assert (K : nth_error (p ++ c :: r) (length q) = Some c) by (rewrite E, nth_error_app2, Nat.sub_diag by lia; reflexivity). rewrite nth_error_app1 in K by exact L. exact (nth_error_In _ _ K).
Qed.

(** ** Case *)
Lemma low_iff c d : low c d <-> lower c = d.
Proof. unfold low, lower. destruct ((65 <=? c) && (c <=? 90))%N; split; congruence. Qed.
Lemma ignoring_iff s t : ignoring_case s t <-> map lower s = t.
Proof.
  unfold ignoring_case. split.
  - induction 1 as [|c d s t H F IH]; [reflexivity|]. cbn [map]. apply low_iff in H. congruence.
  - intros <-. induction s as [|c s IH]; constructor; [apply low_iff; reflexivity|exact IH].
Qed.
Lemma map_split {A B} (f : A -> B) : forall l a b, map f l = a ++ b -> exists x y, l = x ++ y /\ map f x = a /\ map f y = b.
Proof.
  intros l a b E. exists (firstn (length a) l), (skipn (length a) l). split; [symmetry; apply firstn_skipn|]. rewrite <- firstn_map, <- skipn_map, E. rewrite firstn_app, skipn_app, Nat.sub_diag, firstn_O, firstn_all, skipn_all, app_nil_r. auto.
Qed.
Lemma ignored_iff w : ignored w = true <-> excluded w.
Proof.
  unfold ignored, excluded. fold IGNORE. destruct (find_sub IGNORE (map lower w)) as [k|] eqn:E.
  - split; [intros _|reflexivity]. destruct (find_sub_some _ _ _ E) as (q & r & EM). destruct (map_split lower _ _ _ EM) as (x & y' & -> & _ & E2). destruct (map_split lower _ _ _ E2) as (m & y & -> & E3 & _). exists x, m, y. split; [reflexivity|]. apply ignoring_iff, E3.
  - split; [discriminate|]. intros (x & m & y & -> & H). apply ignoring_iff in H. exfalso. apply (find_sub_none _ _ E (map lower x) (map lower y)). rewrite !map_app, H. reflexivity.
Qed.
Lemma speaker_name_ok spkr s : named spkr s -> speaker_name [] spkr = s.
Proof.
  unfold speaker_name, is_gap. fold GAP. rewrite app_nil_r. intros [(H & ->)|(H & ->)].
  - apply ignoring_iff in H. fold GAP in H |- *. rewrite H, str_eqb_refl. reflexivity.
  - destruct (str_eqb (map lower spkr) GAP) eqn:E; [|reflexivity]. exfalso. apply H, ignoring_iff. apply str_eqb_spec, E.
Qed.

(** ** Comments *)
Lemma quoted_last s : Forall (fun c => c <> 34%N /\ ~ blank c) s -> last_of (N.eqb 34) (quoted s) = Some (S (length s)).
Proof. intros _. unfold quoted. cbn [app]. change (34%N :: s ++ [34%N]) with ((34%N :: s) ++ 34%N :: []). rewrite last_of_at; [reflexivity|reflexivity|constructor]. Qed.
Lemma quoted_step i s r token c : 2 <= i -> one_word s -> cat_words i (quoted s :: r) token c = cat_words (S i) r [] (set_field i s c).
Proof.
  intros L O. cbn [cat_words]. destruct i as [|[|i]]; [lia|lia|].
  rewrite (quoted_last s O). change (find_sub [34%N] (quoted s)) with (Some 0). cbn [option_eqb Nat.eqb]. unfold quoted at 1. cbn [app length]. rewrite app_length. cbn [length]. replace (S (length s + 1) - 1) with (S (length s)) by lia. rewrite Nat.eqb_refl.
  replace (filter (fun c : N => negb (c =? 34)%N) (quoted s)) with s; [reflexivity|]. unfold quoted. cbn [app filter N.eqb Pos.eqb negb]. rewrite filter_app. cbn [filter N.eqb Pos.eqb negb]. rewrite app_nil_r.
  clear - O. induction O as [|x s (H & _) F IH]; [reflexivity|]. cbn [filter]. replace (x =? 34)%N with false by (symmetry; apply N.eqb_neq, H). cbn [negb]. f_equal. exact IH.
Qed.
Lemma sep_space c : c <> 11%N /\ c <> 12%N -> issep c = isspace c.
Proof.
  intros (A & B). unfold issep, isspace. destruct (N.eqb_spec c 32); [subst; reflexivity|]. destruct (N.eqb_spec c 9); [subst; reflexivity|]. destruct (N.eqb_spec c 13); [subst; reflexivity|]. destruct (N.eqb_spec c 10); [subst; reflexivity|]. cbn [orb]. symmetry. apply andb_false_iff. rewrite !N.leb_gt. lia.
Qed.
Lemma cat_start w0 t r token c : cat_words 0 (w0 :: t :: r) token c =
  cat_words 2 r token {| k_type := if str_eqb t CATEGORY then CATEGORY else if str_eqb t LABEL then LABEL else k_type c; k_id := k_id c; k_title := k_title c; k_desc := k_desc c |}.
Proof. reflexivity. Qed.
Lemma comment_cat l c : cat_line l c -> comment l = [c].
Proof.
  intros (_ & (w0 & SP) & T & NI & O1 & O2 & O3 & NV). unfold comment. rewrite (pieces_same issep isspace l) by (eapply Forall_impl; [|exact NV]; intros x; apply sep_space). rewrite (pieces_spaced _ _ SP).
  rewrite cat_start. fold CATEGORY LABEL in T. replace (if str_eqb (k_type c) CATEGORY then CATEGORY else if str_eqb (k_type c) LABEL then LABEL else k_type no_cat) with (k_type c) by (destruct T as [->| ->]; reflexivity).
  rewrite !quoted_step by (assumption || lia). cbn [cat_words set_field k_id k_title k_desc k_type]. destruct c as [t i ti d]. cbn [k_id k_title k_desc k_type] in *. destruct i; [congruence|reflexivity].
Qed.
Lemma last_of_in p l k : last_of p l = Some k -> exists c, In c l /\ p c = true.
Proof.
  revert k. induction l as [|c l IH]; intros k H; [discriminate|]. cbn [last_of] in H. destruct (last_of p l) as [j|]; [destruct (IH j eq_refl) as (d & H1 & H2); exists d; split; [right; exact H1|exact H2]|]. destruct (p c) eqn:E; [exists c; split; [left; reflexivity|exact E]|discriminate].
Qed.
Lemma plain_words ws : Forall (fun w => Forall (fun c => c <> 34%N) w) ws -> forall i token c, k_id (cat_words i ws token c) = k_id c.
Proof.
  induction 1 as [|w ws H F IH]; intros i token c; [reflexivity|]. cbn [cat_words]. destruct i as [|[|i]]; [apply IH|rewrite IH; reflexivity|].
  destruct (last_of (N.eqb 34) w) as [k|] eqn:E.
  - destruct (last_of_in _ _ _ E) as (d & H1 & H2). apply N.eqb_eq in H2. subst d. rewrite Forall_forall in H. destruct (H _ H1 eq_refl).
  - cbn [option_eqb]. apply IH.
Qed.
Lemma comment_other l : other_comment l -> comment l = [].
Proof.
  intros (_ & NI). unfold comment. rewrite plain_words; [reflexivity|]. apply pieces_chars; [|constructor]. apply Forall_forall. intros c Hc ->. exact (NI Hc).
Qed.

(** ** Data *)
Lemma spaced_nil w ws : ~ spaced [] (w :: ws).
Proof.
  intros H. apply pieces_spaced in H. discriminate.
Qed.
Lemma scan_ok : forall n ws, Forall short (firstn n ws) -> scan n ws = Ok (firstn n ws).
Proof.
  induction n as [|n IH]; intros ws F; [destruct ws; reflexivity|]. destruct ws as [|w ws]; [reflexivity|]. cbn [firstn] in F. inversion F as [|? ? H F1]; subst. cbn [scan firstn]. unfold BUFFER_SIZE. apply Nat.ltb_lt in H. rewrite H, (IH ws F1). reflexivity.
Qed.
Lemma skipn_len {A} (p r : list A) n : n = length p -> skipn n (p ++ r) = r.
Proof. intros ->. rewrite skipn_app, skipn_all, Nat.sub_diag. reflexivity. Qed.
Lemma firstn_len {A} (p r : list A) n : n = length p -> firstn n (p ++ r) = p.
Proof. intros ->. rewrite firstn_app, Nat.sub_diag, firstn_O, firstn_all, app_nil_r. reflexivity. Qed.
(** What the program takes from a line. *)
Definition taken (l : str) (q : entry) : Prop :=
  exists bufs, scan 6 (pieces isspace [] l) = Ok bufs /\ buf bufs 0 = Ok (n_src q) /\ buf bufs 1 = Ok (n_chan q) /\ buf bufs 2 = Ok (n_spkr q)
    /\ buf bufs 3 = Ok (n_b q) /\ buf bufs 4 = Ok (n_e q) /\ label_of l = n_label q
    /\ skipn (words_begin (match nth_error bufs 5 with Some (c :: _) => (c =? 60)%N | _ => false end) l (n_b q) (n_e q)) l = n_words q.
Lemma line_taken l q : data_line l q -> taken l q.
Proof.
  intros [n p src chan spkr b e lab sixth more words SP FS N60 N62 BL NL S6|n p src chan spkr b m e words more SP BL WB NM FM WE HW SW FS N60 FB FE]; cbn [n_src n_chan n_spkr n_b n_e n_label n_words].
  - assert (NP : p <> []) by (intros ->; exact (spaced_nil _ _ SP)).
    assert (PW : pieces isspace [] (p ++ [60%N] ++ lab ++ [62%N] ++ words) = [src; chan; spkr; b; e] ++ sixth :: more).
    { rewrite pieces_two; [|apply isspace_iff, BL|exact NP]. rewrite (pieces_spaced _ _ SP), (pieces_spaced _ _ S6). reflexivity. }
    exists [src; chan; spkr; b; e; sixth]. cbn [n_src n_chan n_spkr n_b n_e n_label n_words]. rewrite PW. split; [rewrite scan_ok by exact FS; reflexivity|]. do 5 (split; [reflexivity|]).
    assert (F62 : find_sub [62%N] (p ++ [60%N] ++ lab ++ [62%N] ++ words) = Some (length p + S (length lab))).
    { replace (p ++ [60%N] ++ lab ++ [62%N] ++ words) with ((p ++ 60%N :: lab) ++ 62%N :: words) by (rewrite <- app_assoc; reflexivity). rewrite find_char_at; [rewrite app_length; reflexivity|]. rewrite in_app_iff. intros [K|[K|K]]; [exact (N62 K)|discriminate|exact (NL K)]. }
    split.
    + unfold label_of. rewrite F62. cbn [app]. rewrite find_char_at by exact N60. replace (Nat.leb (length p) (S (length p + S (length lab)))) with true by (symmetry; apply Nat.leb_le; lia).
      rewrite skipn_len by reflexivity. replace (60%N :: lab ++ 62%N :: words) with ((60%N :: lab ++ [62%N]) ++ words) by (cbn [app]; rewrite <- app_assoc; reflexivity). assert (X : forall n (y : str), match n with 0 | _ => y end = y) by (intros []; reflexivity). rewrite X. apply firstn_len. cbn [length]. rewrite app_length. cbn [length]. lia.
    + cbn [nth_error]. assert (HS : exists w6, sixth = 60%N :: w6).
      { pose proof (pieces_spaced _ _ S6) as E. cbn [app pieces] in E. replace (isspace 60) with false in E by reflexivity.
        assert (K : forall l cur, cur <> [] -> hd 0%N cur = 60%N -> exists w6 r, pieces isspace cur l = (60%N :: w6) :: r).
        { clear. induction l as [|c l IH]; intros cur NE HD; cbn [pieces]; (destruct cur as [|x cur]; [congruence|]); cbn [hd] in HD; subst x; [eauto|]. destruct (isspace c); [eauto|]. apply IH; [discriminate|reflexivity]. }
        destruct (K (lab ++ 62%N :: words) [60%N] ltac:(discriminate) eq_refl) as (w6 & r & E2). cbn [app] in E. rewrite E2 in E. injection E as <- _. eauto. }
      destruct HS as (w6 & ->). cbn [N.eqb Pos.eqb]. unfold words_begin. rewrite F62.
      replace (p ++ [60%N] ++ lab ++ [62%N] ++ words) with ((p ++ 60%N :: lab ++ [62%N]) ++ words) by (rewrite <- app_assoc; cbn [app]; rewrite <- app_assoc; reflexivity).
      apply skipn_len. rewrite app_length. cbn [length]. rewrite app_length. cbn. lia.
  - set (ln := p ++ b ++ m ++ e ++ words) in *.
    assert (NP : p <> []) by (intros ->; exact (spaced_nil _ _ SP)).
    assert (SN : forall w, word w -> Forall (fun c => isspace c = false) w) by (intros w (_ & F); eapply Forall_impl; [|exact F]; intros c; apply isspace_not).
    assert (PW : pieces isspace [] ln = [src; chan; spkr; b; e] ++ more).
    { unfold ln. rewrite pieces_two; [|apply isspace_iff, BL|exact NP]. rewrite (pieces_spaced _ _ SP). cbn [app]. do 3 f_equal. destruct m as [|c m]; [congruence|]. inversion FM as [|? ? Bc FM']; subst. cbn [app].
      rewrite pieces_sep by (apply isspace_iff, Bc). rewrite <- (app_nil_r b) at 1. rewrite pieces_word by (apply SN, WB). cbn [app pieces]. destruct WB as (NB & _). destruct b as [|x b]; [congruence|]. cbn [app]. f_equal.
      rewrite pieces_blank by (eapply Forall_impl; [|exact FM']; intros y; apply isspace_iff). destruct HW as [->|HW].
      - assert (more = []) as -> by (destruct more as [|w6 more]; [reflexivity|destruct (spaced_nil _ _ SW)]).
        rewrite pieces_word by (apply SN, WE). cbn [app pieces]. destruct WE as (NE & _). destruct e; [congruence|reflexivity].
      - destruct words as [|d words]; [cbn in HW; unfold blank in HW; lia|]. cbn [hd] in HW. rewrite pieces_sep by (apply isspace_iff, HW). rewrite <- (app_nil_r e) at 1. rewrite pieces_word by (apply SN, WE). cbn [app pieces]. destruct WE as (NE & _). destruct e as [|x' e]; [congruence|]. cbn [app]. f_equal.
        rewrite <- (pieces_spaced _ _ SW). cbn [pieces]. apply isspace_iff in HW. rewrite HW. reflexivity. }
    exists ([src; chan; spkr; b; e] ++ firstn 1 more). cbn [n_src n_chan n_spkr n_b n_e n_label n_words]. rewrite PW. split; [rewrite scan_ok by exact FS; reflexivity|]. do 5 (split; [reflexivity|]). split.
    + unfold label_of. rewrite find_char_none by exact N60. reflexivity.
    + match goal with |- context [words_begin ?z _ _ _] => assert (L : z = false) end.
      { cbn [app nth_error]. destruct more as [|[|c w] more]; [reflexivity|reflexivity|]. cbn [firstn nth_error]. apply N.eqb_neq. intros ->. apply N60.
          assert (F : Forall (fun c => In c ln) ln) by (apply Forall_forall; auto). pose proof (pieces_chars isspace (fun c => In c ln) ln F [] ltac:(constructor)) as F2. rewrite PW in F2. cbn [app] in F2. do 5 (apply Forall_inv_tail in F2). apply Forall_inv in F2. cbn beta in F2. exact (Forall_inv F2). }
      rewrite L. clear L. unfold words_begin. rewrite (find_sub_first _ _ _ FB). destruct b as [|x b]; [destruct WB; congruence|]. cbn [tl] in FE.
      assert (ES : skipn (S (length p)) ln = b ++ m ++ e ++ words). { unfold ln. replace (p ++ (x :: b) ++ m ++ e ++ words) with ((p ++ [x]) ++ b ++ m ++ e ++ words) by (rewrite <- app_assoc; reflexivity). apply skipn_len. rewrite app_length. cbn. lia. }
      unfold find_from. rewrite ES, (find_sub_first _ _ _ FE). cbn [option_map]. unfold ln. replace (p ++ (x :: b) ++ m ++ e ++ words) with ((p ++ (x :: b) ++ m ++ e) ++ words) by (rewrite <- !app_assoc; reflexivity).
      apply skipn_len. rewrite !app_length. cbn [length]. lia.
Qed.
