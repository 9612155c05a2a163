(** Reading back what was written: paths, speakers, labels, systems. *)
From Coq Require Import String Ascii.
From Coq Require Import List ZArith NArith Arith Bool Lia.
From Verif Require Import Base Text_Model Text_Spec Text_Proofs1 Sgml_Model Sgml_Spec Sgml_Proofs1 Sgml_Proofs2 Sgml_Proofs3 Sgml_Proofs4 Sgml_Proofs5.
From Verif Require Read_Model Read_Proofs3 Word_Model Scores_Model.
Import ListNotations.
Local Open Scope res_scope.
Local Open Scope list_scope.

Section report.
  Variables (e : enc) (maxn : nat).
  Notation runs := (Runs e maxn).

  Lemma rl_begin st c r : c <> 47%N -> read_line e maxn st (60%N :: c :: r) = begin_tag e maxn st (cstr (60%N :: c :: r)).
  Proof.
    intros N. unfold read_line, cstr. cbn [app rd rbind]. change (60 =? 60)%N with true. cbv iota. rewrite adv1. cbn [rbind rd].
    destruct (N.eqb_spec c 47); [contradiction|]. reflexivity.
  Qed.
  Lemma rl_end st r : read_line e maxn st (60%N :: 47%N :: r) = end_tag e st (cstr (60%N :: 47%N :: r)).
  Proof.
    unfold read_line, cstr. cbn [app rd rbind]. change (60 =? 60)%N with true. cbv iota. rewrite adv1. reflexivity.
  Qed.
  Lemma tagtext_no10 L : Forall (okatt e) L -> ~ In 10%N (tagtext L).
  Proof.
    intros H. induction H as [|[n v] L [Hn Hv] HL IH]; [intros []|]. change (tagtext ((n, v) :: L)) with (attr n v ++ tagtext L).
    intro I. apply in_app_or in I as [I|I]; [|contradiction]. unfold attr in I. cbn [fst snd] in *.
    apply okname_bytes in Hn as [_ Hn]. rewrite Forall_forall in Hn.
    repeat (apply in_app_or in I as [I|I]); try (cbn in I; intuition discriminate).
    - specialize (Hn _ I). lia.
    - exact (proj2 (proj2 Hv) I).
  Qed.
  Lemma no10_app a b : ~ In 10%N a -> ~ In 10%N b -> ~ In 10%N (a ++ b).
  Proof. intros H K I. apply in_app_or in I as [I|I]; contradiction. Qed.
  Lemma no10_const s : forallb (fun b => negb (b =? 10)%N) (B s) = true -> ~ In 10%N (B s).
  Proof. intros H I. rewrite forallb_forall in H. specialize (H _ I). discriminate. Qed.

  (** a tag is put on the stack *)
  Lemma tag_line st name n v L st' : okname name = true -> nth 0 (B name) 0%N <> 47%N -> Forall (okatt e) ((n, v) :: L) -> S (length L) <= 30 -> length (s_tags st) < 10 ->
    (begin_tag e maxn st (cstr (B "<" ++ B name ++ tagtext ((n, v) :: L) ++ B ">" ++ NL)) = Ok st') ->
    runs st (B "<" ++ B name ++ tagtext ((n, v) :: L) ++ B ">" ++ NL) st'.
  Proof.
    intros Hn H47 HL Hl Ht E. pose proof (okname_bytes name Hn) as [NE NB].
    replace (B "<" ++ B name ++ tagtext ((n, v) :: L) ++ B ">" ++ NL) with ((B "<" ++ B name ++ tagtext ((n, v) :: L) ++ B ">") ++ NL) by (rewrite <- !app_assoc; reflexivity).
    apply Runs_one.
    - apply no10_app; [apply no10_const; reflexivity|]. apply no10_app; [intro I; rewrite Forall_forall in NB; specialize (NB _ I); lia|].
      apply no10_app; [apply tagtext_no10; exact HL|apply no10_const; reflexivity].
    - rewrite <- !app_assoc. destruct (B name) as [|b r] eqn:EB; [congruence|].
      change (B "<" ++ (b :: r) ++ tagtext ((n, v) :: L) ++ B ">" ++ NL) with (60%N :: b :: r ++ tagtext ((n, v) :: L) ++ B ">" ++ NL) in *.
      rewrite rl_begin by exact H47. exact E.
  Qed.
  Lemma end_line st s st' : forallb (fun b => negb (b =? 10)%N) (B s) = true ->
    end_tag e st (cstr (B "</" ++ B s ++ B ">" ++ NL)) = Ok st' -> runs st (B "</" ++ B s ++ B ">" ++ NL) st'.
  Proof.
    intros H E. replace (B "</" ++ B s ++ B ">" ++ NL) with ((B "</" ++ B s ++ B ">") ++ NL) by (rewrite <- !app_assoc; reflexivity).
    apply Runs_one.
    - repeat apply no10_app; apply no10_const; try assumption; reflexivity.
    - rewrite <- !app_assoc. change (B "</" ++ B s ++ B ">" ++ NL) with (60%N :: 47%N :: B s ++ B ">" ++ NL) in *. rewrite rl_end. exact E.
  Qed.

  (** ** A path *)
  Lemma path_atts_cons p : path_atts p = ("id"%string, pa_id p) :: tl (path_atts p).
  Proof. reflexivity. Qed.
  Lemma run_path_tag tags done cur i pp fields p : path_ok e p -> length tags < 10 ->
    runs (Build_state tags done cur (Some i) pp fields) (path_tag p)
         (Build_state ((B "PATH", pairs (path_atts p)) :: tags) done cur (Some i) (Some {| o_path := opened p []; o_max := room (length (pa_set p)) |})
            (fields_after (pa_flags p) fields)).
  Proof.
    intros HP Ht. rewrite path_tag_text. pose proof (path_atts_ok e p HP) as HA. pose proof (path_atts_len p) as HL.
    rewrite path_atts_cons in HA, HL. rewrite path_atts_cons at 1. cbn [length] in HL. apply tag_line; [reflexivity|discriminate|exact HA|lia|exact Ht|].
    unfold begin_tag. cbn [s_tags s_done s_cur s_spk s_path s_fields]. rewrite (add_tag_ok e tags "PATH" "id") by (try assumption; try reflexivity; lia). cbn [rbind].
    rewrite <- path_atts_cons. rewrite !teqB by reflexivity. cbn [rbind String.eqb Ascii.eqb Bool.eqb].
    rewrite begin_path_ok by exact HP. reflexivity.
  Qed.
  Lemma run_data tags done cur i p fields : path_ok e p -> (kinds (pa_flags p) = [] \/ fields = kinds (pa_flags p)) ->
    runs (Build_state tags done cur i (Some {| o_path := opened p []; o_max := room (length (pa_set p)) |}) fields) (data (pa_flags p) (pa_set p))
         (Build_state tags done cur i (Some {| o_path := path_read p; o_max := room (length (pa_set p)) |}) fields).
  Proof.
    intros (_ & _ & _ & _ & HE) HF. destruct (entries_text_ok e (pa_flags p) (pa_set p) HE) as (t & _ & ED). rewrite <- ED.
    apply Runs_one.
    - intro I. assert (Q : ~ In 10%N t); [|contradiction]. clear I. intro I.
      assert (C : count_occ N.eq_dec (data (pa_flags p) (pa_set p)) 10%N = 1).
      { clear ED I t. assert (NE : forall x, entry_ok e x -> count_occ N.eq_dec (etext (pa_flags p) x) 10%N = 0).
        { intros x Hx. apply count_occ_not_In. unfold etext. apply no10_app.
          - assert (SQ : forall w, side_ok e w -> ~ In 10%N (quoted (shown_side w))).
            { intros w (y & -> & Hy) J. unfold quoted, QUOTE in J. cbn [shown_side app] in J. destruct J as [J|J]; [discriminate|]. apply in_app_or in J as [J|J].
              - apply (shown_word_safe e y _ Hy) in J. tauto.
              - cbn in J. intuition discriminate. }
            unfold head, entry_ok in *. destruct (en_ev x); try contradiction;
              repeat first [apply SQ; solve [exact Hx | apply Hx] | apply no10_app | solve [cbn; intuition discriminate]].
          - unfold items. generalize (kinds (pa_flags p)). intros l. induction l as [|a l IH]; [intros []|]. cbn [map concat]. apply no10_app; [|exact IH].
            intros [J|J]; [discriminate|]. revert J. apply item_not; [unfold numeric, isd; lia|discriminate]. }
        clear HF. induction HE as [|x l Hx HE IH]; [reflexivity|].
        change (data (pa_flags p) (x :: l)) with (etext (pa_flags p) x ++ (match l with [] => 10%N | _ => 58%N end) :: dtail (pa_flags p) l).
        rewrite count_occ_app, (NE x Hx). destruct l as [|y l].
        - reflexivity.
        - change (data (pa_flags p) (y :: l)) with (dtail (pa_flags p) (y :: l)) in IH. cbn [Nat.add]. rewrite count_occ_cons_neq by discriminate. exact IH. }
      rewrite <- ED, count_occ_app in C. cbn in C. apply (count_occ_In N.eq_dec) in I. lia.
    - rewrite ED. clear ED t. unfold path_read, opened. destruct (pa_set p) as [|x l] eqn:EP.
      + cbn [data length map]. unfold read_line, cstr, NL. cbn [app rd rbind]. change (10 =? 60)%N with false. cbv iota. cbn [s_path rbind].
        cbn [length]. cbn [read_data]. unfold strqtok. rewrite strspn_in by (lia || reflexivity). rewrite strspn_out by (lia || (left; reflexivity)). reflexivity.
      + change (data (pa_flags p) (x :: l)) with (dtail (pa_flags p) (x :: l)).
        destruct (etext_head (pa_flags p) x) as (c & y & EX & Hc & _ & N60).
        assert (EH : exists q, dtail (pa_flags p) (x :: l) = c :: q) by (eexists; cbn [dtail]; rewrite EX; reflexivity).
        destruct EH as (q & EQ). unfold read_line. rewrite EQ at 1. unfold cstr at 1. cbn [app rd rbind]. destruct (N.eqb_spec c 60); [contradiction|].
        cbn [rbind s_path]. rewrite (read_tail e (pa_flags p) fields (x :: l)); [reflexivity|exact HF|exact HE| | |].
        * pose proof (dtail_len (pa_flags p) (x :: l)). unfold cstr. rewrite app_length. cbn [length] in *. lia.
        * unfold token_buffer. rewrite repeat_length. destruct (Nat.ltb_spec 99 (length (dtail (pa_flags p) (x :: l)))); lia.
        * cbn [o_path pa_set o_max]. pose proof (room_enough (length (x :: l))). cbn [length] in *. lia.
  Qed.
  Lemma add_path_at gs n ps p : add_path (gs ++ [(n, ps)]) (length gs) p = Ok (gs ++ [(n, ps ++ [p])]).
  Proof. induction gs as [|g gs IH]; [reflexivity|]. cbn [app add_path length]. destruct g. rewrite IH. reflexivity. Qed.
  Lemma end_path tags at_ done r gs n ps o fields :
    runs (Build_state ((B "PATH", at_) :: tags) done (Some (with_grps r (gs ++ [(n, ps)]))) (Some (length gs)) (Some o) fields)
      (B "</" ++ B "PATH" ++ B ">" ++ NL)
      (Build_state tags done (Some (with_grps r (gs ++ [(n, ps ++ [o_path o])]))) (Some (length gs)) None fields).
  Proof.
    apply end_line; [reflexivity|]. unfold end_tag. cbn [s_tags s_done s_cur s_spk s_path s_fields].
    change (delete_tag ((B "PATH", at_) :: tags) (cstr (B "</" ++ B "PATH" ++ B ">" ++ NL))) with (Ok (Some (B "PATH", tags))). cbn [rbind].
    rewrite !teqB by reflexivity. cbn [rbind String.eqb Ascii.eqb Bool.eqb]. cbn [r_grps with_grps]. rewrite add_path_at. reflexivity.
  Qed.
  Lemma run_paths tags done r gs n l : length tags < 10 -> Forall (path_ok e) l -> forall ps fields, exists t fields',
    paths_text (B ":") (B ",") l = Ok t /\
    runs (Build_state tags done (Some (with_grps r (gs ++ [(n, ps)]))) (Some (length gs)) None fields) t
         (Build_state tags done (Some (with_grps r (gs ++ [(n, ps ++ map path_read l)]))) (Some (length gs)) None fields').
  Proof.
    intros Ht HL. induction HL as [|p l Hp HL IH]; intros ps fields.
    - exists [], fields. split; [reflexivity|]. cbn [map]. rewrite app_nil_r. constructor.
    - pose proof Hp as (_ & _ & _ & _ & HE). destruct (entries_text_ok e (pa_flags p) (pa_set p) HE) as (d & E1 & ED).
      destruct (IH (ps ++ [path_read p]) (fields_after (pa_flags p) fields)) as (t & fields' & E2 & R).
      exists ((path_tag p ++ d ++ NL ++ B "</PATH>" ++ NL) ++ t), fields'. split.
      + cbn [paths_text]. unfold path_text. rewrite E1. cbn [rbind]. rewrite E2. reflexivity.
      + cbn [map]. replace (ps ++ path_read p :: map path_read l) with ((ps ++ [path_read p]) ++ map path_read l) by (rewrite <- app_assoc; reflexivity).
        eapply Runs_app; [|exact R]. eapply Runs_app; [apply run_path_tag; assumption|].
        replace (d ++ NL ++ B "</PATH>" ++ NL) with (data (pa_flags p) (pa_set p) ++ B "</" ++ B "PATH" ++ B ">" ++ NL) by (rewrite <- ED, <- app_assoc; reflexivity).
        eapply Runs_app; [apply run_data; [exact Hp|]|].
        * unfold fields_after. destruct (kinds (pa_flags p)); [left|right]; reflexivity.
        * exact (end_path tags (pairs (path_atts p)) done r gs n ps {| o_path := path_read p; o_max := room (length (pa_set p)) |} _).
  Qed.

  (** ** Speakers *)
  Lemma find_grp_none gs n : ~ In n (map fst gs) -> find_grp gs n = None.
  Proof.
    induction gs as [|[m ps] gs IH]; intros H; [reflexivity|]. cbn [find_grp map fst In] in *. rewrite same_neq by (intros ->; apply H; left; reflexivity).
    rewrite IH; [reflexivity|tauto].
  Qed.
  Lemma run_grps tags done r l : length tags < 9 -> forall gs fields pp, NoDup (map fst gs ++ map fst l) ->
    Forall (fun g => field e (fst g) /\ Forall (path_ok e) (snd g)) l -> pp = None -> exists t fields',
    grps_text (B ":") (B ",") l = Ok t /\
    runs (Build_state tags done (Some (with_grps r gs)) None pp fields) t
         (Build_state tags done (Some (with_grps r (gs ++ map (fun g => (fst g, map path_read (snd g))) l))) None None fields').
  Proof.
    intros Ht. induction l as [|[n ps] l IH]; intros gs fields pp ND HL ->.
    - exists [], fields. split; [reflexivity|]. cbn [map]. rewrite app_nil_r. constructor.
    - inversion HL as [|? ? [Hn HP] HL']; subst. cbn [fst snd] in Hn, HP.
      assert (NI : ~ In n (map fst gs)).
      { intro I. cbn [map fst] in ND. apply NoDup_remove_2 in ND. apply ND. apply in_or_app. left. exact I. }
      destruct (run_paths ((B "SPEAKER", pairs [("id"%string, n)]) :: tags) done r gs n ps ltac:(cbn [length]; lia) HP [] fields) as (t & fields1 & E1 & R1).
      destruct (IH (gs ++ [(n, map path_read ps)]) fields1 None) as (u & fields2 & E2 & R2); [|exact HL'|reflexivity|].
      { rewrite map_app, <- app_assoc. exact ND. }
      eexists. exists fields2. split.
      + cbn [grps_text]. rewrite E1. cbn [rbind]. rewrite E2. cbn [rbind]. reflexivity.
      + cbn [map fst snd]. replace (gs ++ (n, map path_read ps) :: map (fun g => (fst g, map path_read (snd g))) l)
          with ((gs ++ [(n, map path_read ps)]) ++ map (fun g => (fst g, map path_read (snd g))) l) by (rewrite <- app_assoc; reflexivity).
        replace (B "<SPEAKER" ++ attr "id" n ++ B ">" ++ NL ++ t ++ B "</SPEAKER>" ++ NL ++ u)
          with ((B "<" ++ B "SPEAKER" ++ tagtext [("id"%string, n)] ++ B ">" ++ NL) ++ t ++ (B "</" ++ B "SPEAKER" ++ B ">" ++ NL) ++ u).
        2:{ unfold tagtext. cbn [map concat fst snd]. rewrite app_nil_r. rewrite <- !app_assoc. reflexivity. }
        eapply Runs_app; [|eapply Runs_app; [exact R1|eapply Runs_app; [|exact R2]]].
        * apply tag_line; [reflexivity|discriminate| |cbn; lia|cbn; lia|].
          { constructor; [split; [reflexivity|exact Hn]|constructor]. }
          unfold begin_tag. cbn [s_tags s_done s_cur s_spk s_path s_fields].
          rewrite add_tag_ok; [|lia|reflexivity|constructor; [split; [reflexivity|exact Hn]|constructor]|cbn; lia]. cbn [rbind].
          rewrite !teqB by reflexivity. cbn [rbind String.eqb Ascii.eqb Bool.eqb].
          rewrite (get_attrib_ok e [("id"%string, n)] "id"); [|constructor; [split; [reflexivity|exact Hn]|constructor]|reflexivity]. cbn [rbind lk dflt String.eqb Ascii.eqb Bool.eqb].
          unfold get_grp. cbn [r_grps with_grps]. rewrite find_grp_none by exact NI. reflexivity.
        * apply end_line; [reflexivity|]. unfold end_tag. cbn [s_tags s_done s_cur s_spk s_path s_fields].
          change (delete_tag ((B "SPEAKER", pairs [("id"%string, n)]) :: tags) (cstr (B "</" ++ B "SPEAKER" ++ B ">" ++ NL))) with (Ok (Some (B "SPEAKER", tags))). cbn [rbind].
          rewrite !teqB by reflexivity. cbn [rbind String.eqb Ascii.eqb Bool.eqb]. reflexivity.
  Qed.

  (** ** Labels *)
  Definition lab_atts (x : label) : atts := [("id", lb_id x); ("title", lb_title x); ("desc", lb_desc x)]%string.
  Lemma lab_atts_ok x : label_ok e x -> Forall (okatt e) (lab_atts x).
  Proof. intros (H1 & H2 & H3 & _). unfold lab_atts. repeat (apply Forall_cons; [split; [reflexivity|assumption]|]). constructor. Qed.
  Lemma line_text s x : forallb nameb (B s) = true -> label_ok e x ->
    text e (attr "id" (lb_id x) ++ attr "title" (lb_title x) ++ attr "desc" (lb_desc x) ++ NL).
  Proof.
    intros Hs (H1 & H2 & H3 & _). unfold attr. repeat apply text_app; try (apply text_plain; reflexivity); (apply H1 || apply H2 || apply H3).
  Qed.
  Lemma comment_label x ls cs : label_ok e x -> Forall (label_ok e) ls ->
    comment_line e ls cs (cstr (label_line "LABEL" x)) = Ok (true, (if in_dec label_dec x ls then ls else ls ++ [x]), cs).
  Proof.
    intros Hx HL. unfold comment_line. change (is_comment (cstr (label_line "LABEL" x))) with (@Ok bool true). cbn [rbind negb].
    pose proof Hx as (F1 & F2 & F3 & _).
    destruct (strccmp_prefix e (B ";; LABEL ") (B "id=" ++ QUOTE ++ lb_id x ++ QUOTE ++ attr "title" (lb_title x) ++ attr "desc" (lb_desc x) ++ NL) (B ";; LABEL ") 9)
      as (z & E & Ez); [reflexivity| |reflexivity|reflexivity|lia|reflexivity|].
    { unfold attr. repeat apply text_app; try (apply text_plain; reflexivity); (apply F1 || apply F2 || apply F3). }
    change (B ";; LABEL " ++ B "id=" ++ QUOTE ++ lb_id x ++ QUOTE ++ attr "title" (lb_title x) ++ attr "desc" (lb_desc x) ++ NL) with
      (B ";; " ++ B "LABEL" ++ B " " ++ B "id" ++ B "=" ++ QUOTE ++ lb_id x ++ QUOTE ++ attr "title" (lb_title x) ++ attr "desc" (lb_desc x) ++ NL) in E.
    assert (EL : label_line "LABEL" x = B ";; " ++ B "LABEL" ++ B " " ++ B "id" ++ B "=" ++ QUOTE ++ lb_id x ++ QUOTE ++ attr "title" (lb_title x) ++ attr "desc" (lb_desc x) ++ NL).
    { unfold label_line. unfold attr at 1. rewrite <- !app_assoc. reflexivity. }
    rewrite <- EL in E. rewrite E. cbn [rbind]. rewrite Ez, same_refl. rewrite (add_label_ok e "LABEL"); [reflexivity|reflexivity|assumption|assumption].
  Qed.
  Lemma comment_cat x ls cs : label_ok e x -> Forall (label_ok e) cs ->
    comment_line e ls cs (cstr (label_line "CATEGORY" x)) = Ok (true, ls, (if in_dec label_dec x cs then cs else cs ++ [x])).
  Proof.
    intros Hx HL. unfold comment_line. change (is_comment (cstr (label_line "CATEGORY" x))) with (@Ok bool true). cbn [rbind negb].
    pose proof Hx as (F1 & F2 & F3 & _).
    assert (HT : text e (QUOTE ++ lb_id x ++ QUOTE ++ attr "title" (lb_title x) ++ attr "desc" (lb_desc x) ++ NL)).
    { unfold attr. repeat apply text_app; try (apply text_plain; reflexivity); (apply F1 || apply F2 || apply F3). }
    set (R := QUOTE ++ lb_id x ++ QUOTE ++ attr "title" (lb_title x) ++ attr "desc" (lb_desc x) ++ NL) in *.
    assert (EL : label_line "CATEGORY" x = B ";; CATEGORY id=" ++ R).
    { unfold label_line. unfold attr at 1. rewrite <- !app_assoc. reflexivity. }
    destruct (strccmp_prefix e (B ";; CATEGO") (B "RY id=" ++ R) (B ";; LABEL ") 9) as (z & E & Ez); [reflexivity| |reflexivity|reflexivity|lia|reflexivity|].
    { apply text_app; [apply text_plain; reflexivity|exact HT]. }
    change (B ";; CATEGO" ++ B "RY id=" ++ R) with (B ";; CATEGORY id=" ++ R) in E. rewrite <- EL in E. rewrite E. cbn [rbind]. rewrite Ez.
    rewrite same_neq by discriminate. clear z E Ez.
    destruct (strccmp_prefix e (B ";; CATEGORY ") (B "id=" ++ R) (B ";; CATEGORY ") 12) as (z & E & Ez); [reflexivity| |reflexivity|reflexivity|lia|reflexivity|].
    { apply text_app; [apply text_plain; reflexivity|exact HT]. }
    change (B ";; CATEGORY " ++ B "id=" ++ R) with (B ";; CATEGORY id=" ++ R) in E. rewrite <- EL in E. rewrite E. cbn [rbind]. rewrite Ez, same_refl.
    rewrite (add_label_ok e "CATEGORY"); [reflexivity|reflexivity|assumption|assumption].
  Qed.
  Lemma line_len s x : length (B s) <= 8 -> label_ok e x -> (N.of_nat (length (label_line s x)) < 10000)%N.
  Proof.
    intros Hs (_ & _ & _ & H). unfold label_line, attr. rewrite !app_length.
    change (length (B ";; ")) with 3. change (length (B " ")) with 1. change (length (B "id")) with 2. change (length (B "title")) with 5.
    change (length (B "desc")) with 4. change (length (B "=")) with 1. change (length QUOTE) with 1. change (length NL) with 1. lia.
  Qed.
  Lemma read_label_ok s x r : okname s = true -> length (B s) <= 8 -> label_ok e x ->
    read_label e (B s) (pairs (lab_atts x)) r =
    let* (y, cs) := comment_line e (r_labels r) (r_cats r) (cstr (label_line s x)) in Ok (with_labels r (snd y) cs).
  Proof.
    intros Hs Hl Hx. unfold read_label. pose proof (lab_atts_ok x Hx) as HA.
    rewrite (get_attrib_ok e _ "id") by (exact HA || reflexivity). cbn [rbind].
    rewrite (get_attrib_ok e _ "title") by (exact HA || reflexivity). cbn [rbind].
    rewrite (get_attrib_ok e _ "desc") by (exact HA || reflexivity). cbn [rbind lab_atts lk String.eqb Ascii.eqb Bool.eqb dflt].
    change (B ";; " ++ B s ++ attr "id" (lb_id x) ++ attr "title" (lb_title x) ++ attr "desc" (lb_desc x) ++ NL) with (label_line s x). cbv zeta.
    pose proof (line_len s x Hl Hx) as LL. apply N.ltb_lt in LL. rewrite LL. reflexivity.
  Qed.
  Lemma label_text_eq s x : label_text s x = (B "<" ++ B s ++ tagtext (lab_atts x) ++ B ">" ++ NL) ++ (B "</" ++ B s ++ B ">" ++ NL).
  Proof. unfold label_text, lab_atts, tagtext. cbn [map concat fst snd]. rewrite app_nil_r, <- !app_assoc. reflexivity. Qed.
  Lemma run_labels tags done r cs pp fields l : length tags < 10 -> Forall (label_ok e) l -> forall ls, NoDup (ls ++ l) -> Forall (label_ok e) ls ->
    runs (Build_state tags done (Some (with_labels r ls cs)) None pp fields) (concat (map (label_text "LABEL") l))
         (Build_state tags done (Some (with_labels r (ls ++ l) cs)) None pp fields).
  Proof.
    intros Ht HL. induction HL as [|x l Hx HL IH]; intros ls ND HLS; cbn [map concat]; [rewrite app_nil_r; constructor|].
    replace (ls ++ x :: l) with ((ls ++ [x]) ++ l) in * by (rewrite <- app_assoc; reflexivity).
    eapply Runs_app; [|apply IH; [exact ND|apply Forall_app; auto]]. rewrite label_text_eq. eapply Runs_app.
    - unfold lab_atts. apply tag_line; [reflexivity|discriminate|apply (lab_atts_ok x Hx)|cbn; lia|exact Ht|].
      unfold begin_tag. cbn [s_tags s_done s_cur s_spk s_path s_fields].
      rewrite add_tag_ok; [|lia|reflexivity|apply (lab_atts_ok x Hx)|cbn; lia]. cbn [rbind].
      rewrite !teqB by reflexivity. cbn [rbind String.eqb Ascii.eqb Bool.eqb orb].
      change (pairs [("id"%string, lb_id x); ("title"%string, lb_title x); ("desc"%string, lb_desc x)]) with (pairs (lab_atts x)).
      rewrite read_label_ok by (try reflexivity; try assumption; cbn; lia). cbn [r_labels r_cats with_labels]. rewrite comment_label by assumption.
      destruct (in_dec label_dec x ls) as [I|I]; [|cbn [rbind snd]; reflexivity].
      exfalso. rewrite <- app_assoc in ND. apply NoDup_remove_2 in ND. apply ND. apply in_or_app. left. exact I.
    - apply end_line; [reflexivity|]. unfold end_tag. cbn [s_tags s_done s_cur s_spk s_path s_fields].
      match goal with |- context [delete_tag ?a ?b] => change (delete_tag a b) with (Ok (Some (B "LABEL", tags))) end. cbn [rbind].
      rewrite !teqB by reflexivity. cbn [rbind String.eqb Ascii.eqb Bool.eqb]. reflexivity.
  Qed.
  Lemma run_cats tags done r ls pp fields l : length tags < 10 -> Forall (label_ok e) l -> forall cs, NoDup (cs ++ l) -> Forall (label_ok e) cs ->
    runs (Build_state tags done (Some (with_labels r ls cs)) None pp fields) (concat (map (label_text "CATEGORY") l))
         (Build_state tags done (Some (with_labels r ls (cs ++ l))) None pp fields).
  Proof.
    intros Ht HL. induction HL as [|x l Hx HL IH]; intros cs ND HLS; cbn [map concat]; [rewrite app_nil_r; constructor|].
    replace (cs ++ x :: l) with ((cs ++ [x]) ++ l) in * by (rewrite <- app_assoc; reflexivity).
    eapply Runs_app; [|apply IH; [exact ND|apply Forall_app; auto]]. rewrite label_text_eq. eapply Runs_app.
    - unfold lab_atts. apply tag_line; [reflexivity|discriminate|apply (lab_atts_ok x Hx)|cbn; lia|exact Ht|].
      unfold begin_tag. cbn [s_tags s_done s_cur s_spk s_path s_fields].
      rewrite add_tag_ok; [|lia|reflexivity|apply (lab_atts_ok x Hx)|cbn; lia]. cbn [rbind].
      rewrite !teqB by reflexivity. cbn [rbind String.eqb Ascii.eqb Bool.eqb orb].
      change (pairs [("id"%string, lb_id x); ("title"%string, lb_title x); ("desc"%string, lb_desc x)]) with (pairs (lab_atts x)).
      rewrite read_label_ok by (try reflexivity; try assumption; cbn; lia). cbn [r_labels r_cats with_labels]. rewrite comment_cat by assumption.
      destruct (in_dec label_dec x cs) as [I|I]; [|cbn [rbind snd]; reflexivity].
      exfalso. rewrite <- app_assoc in ND. apply NoDup_remove_2 in ND. apply ND. apply in_or_app. left. exact I.
    - apply end_line; [reflexivity|]. unfold end_tag. cbn [s_tags s_done s_cur s_spk s_path s_fields].
      match goal with |- context [delete_tag ?a ?b] => change (delete_tag a b) with (Ok (Some (B "CATEGORY", tags))) end. cbn [rbind].
      rewrite !teqB by reflexivity. cbn [rbind String.eqb Ascii.eqb Bool.eqb]. reflexivity.
  Qed.

  (** ** Systems *)
  Definition wname (r : report) : str := if r_wali r then match r_wfile r with Some w => w | None => [] end else [].
  Lemma run_sys_tag done r f h d fields : report_ok e r -> r_ref r = Some f -> r_hyp r = Some h -> r_date r = Some d -> length done < maxn ->
    runs (Build_state [] done None None None fields) (B "<" ++ B "SYSTEM" ++ tagtext (sys_atts r f h d (wname r)) ++ B ">" ++ NL)
         (Build_state [(B "SYSTEM", pairs (sys_atts r f h d (wname r)))] done (Some (with_labels (opened_sys r) [] [])) None None fields).
  Proof.
    intros (Ht & Hf & Hh & Hd & Hw & _) Ef Eh Ed Hn.
    assert (W : field e (wname r) /\ (r_wali r = true -> r_wfile r = Some (wname r))).
    { unfold wname. destruct (r_wali r); [|split; [apply field_plain; reflexivity|discriminate]]. destruct (Hw eq_refl) as (w & -> & Fw). auto. }
    assert (NM : forall s x, named e s -> s = Some x -> field e x /\ x <> []) by (intros s x (y & -> & H1 & H2) E; injection E as <-; auto).
    destruct (NM _ _ Hf Ef) as [Ff Nf]. destruct (NM _ _ Hh Eh) as [Fh Nh]. destruct (NM _ _ Hd Ed) as [Fd Nd].
    pose proof (sys_atts_ok e r f h d (wname r) Ht Ff Fh Fd (proj1 W)) as HA.
    unfold sys_atts at 1. apply tag_line; [reflexivity|discriminate|exact HA|cbn; lia|cbn; lia|].
    unfold begin_tag. cbn [s_tags s_done s_cur s_spk s_path s_fields]. rewrite add_tag_ok; [|cbn; lia|reflexivity|exact HA|cbn; lia]. cbn [rbind].
    rewrite !teqB by reflexivity. cbn [rbind String.eqb Ascii.eqb Bool.eqb]. rewrite app_nil_r. destruct (Nat.leb_spec maxn (length done)); [lia|].
    match goal with |- context [begin_system e (pairs ?l)] => change l with (sys_atts r f h d (wname r)) end.
    rewrite begin_system_ok by (try assumption; try apply W). reflexivity.
  Qed.
  Lemma run_system done r fields : report_ok e r -> length done < maxn -> exists t fields',
    sgml_report r = Ok t /\ runs (Build_state [] done None None None fields) t (Build_state [] (done ++ [report_read r]) None None None fields').
  Proof.
    intros HR Hn. pose proof HR as (Ht & (f & Ef & _) & (h & Eh & _) & (d & Ed & _) & Hw & HL & NL1 & HC & NL2 & NG & HG).
    set (S0 := (B "SYSTEM", pairs (sys_atts r f h d (wname r)))).
    destruct (run_grps [S0] done (with_labels (opened_sys r) (r_labels r) (r_cats r)) (r_grps r) ltac:(cbn; lia) [] fields None NG HG eq_refl) as (g & fields' & EG & RG).
    eexists. exists fields'. split.
    - unfold sgml_report, dump. rewrite Ef, Eh, Ed. cbn [text_of rbind].
      assert (EW : (if r_wali r then text_of (r_wfile r) else Ok []) = Ok (wname r)).
      { unfold wname. destruct (r_wali r); [|reflexivity]. destruct (Hw eq_refl) as (w & -> & _). reflexivity. }
      rewrite EW. cbn [rbind]. rewrite EG. cbn [rbind]. reflexivity.
    - match goal with |- runs _ ?x _ => replace x with
        ((B "<" ++ B "SYSTEM" ++ tagtext (sys_atts r f h d (wname r)) ++ B ">" ++ NL)
         ++ concat (map (label_text "LABEL") (r_labels r)) ++ concat (map (label_text "CATEGORY") (r_cats r)) ++ g ++ (B "</" ++ B "SYSTEM" ++ B ">" ++ NL)) end.
      2:{ unfold sys_atts, tagtext. cbn [map concat fst snd]. rewrite app_nil_r, <- !app_assoc. reflexivity. }
      eapply Runs_app; [apply run_sys_tag; assumption|]. fold S0.
      eapply Runs_app; [apply run_labels; [cbn; lia|exact HL|exact NL1|constructor]|]. cbn [app].
      eapply Runs_app; [apply run_cats; [cbn; lia|exact HC|exact NL2|constructor]|]. cbn [app].
      change (with_labels (opened_sys r) (r_labels r) (r_cats r)) with (with_grps (with_labels (opened_sys r) (r_labels r) (r_cats r)) []).
      eapply Runs_app; [exact RG|]. cbn [app].
      apply end_line; [reflexivity|]. unfold end_tag. cbn [s_tags s_done s_cur s_spk s_path s_fields]. subst S0.
      match goal with |- context [delete_tag ?a ?b] => change (delete_tag a b) with (@Ok (option (str * list tag)) (Some (B "SYSTEM", []))) end. cbn [rbind].
      rewrite !teqB by reflexivity. cbn [rbind String.eqb Ascii.eqb Bool.eqb]. reflexivity.
  Qed.
  Lemma run_systems l : forall done fields, Forall (report_ok e) l -> length done + length l <= maxn -> exists t fields',
    dumps sgml_report l = Ok t /\ runs (Build_state [] done None None None fields) t (Build_state [] (done ++ map report_read l) None None None fields').
  Proof.
    induction l as [|r l IH]; intros done fields HL Hn.
    - exists [], fields. split; [reflexivity|]. cbn [map]. rewrite app_nil_r. constructor.
    - inversion HL as [|? ? Hr HL']; subst. cbn [length] in Hn. destruct (run_system done r fields Hr ltac:(lia)) as (t & f1 & E1 & R1).
      destruct (IH (done ++ [report_read r]) f1 HL') as (u & f2 & E2 & R2); [rewrite app_length; cbn; lia|].
      exists (t ++ u), f2. split; [cbn [dumps]; rewrite E1; cbn [rbind]; rewrite E2; reflexivity|].
      cbn [map]. replace (done ++ report_read r :: map report_read l) with ((done ++ [report_read r]) ++ map report_read l) by (rewrite <- app_assoc; reflexivity).
      eapply Runs_app; eassumption.
  Qed.
  Lemma load_reports l : Forall (report_ok e) l -> length l <= maxn -> exists t, dumps sgml_report l = Ok t /\ load e maxn t = Ok (map report_read l).
  Proof.
    intros HL Hn. destruct (run_systems l [] [] HL Hn) as (t & f & E & R). exists t. split; [exact E|]. unfold load.
    rewrite (Runs_load e maxn _ _ _ (S (length t)) R) by lia. cbn [rbind s_done s_cur]. rewrite app_nil_r. reflexivity.
  Qed.
End report.
