(** The reader, line by line. *)
From Coq Require Import String List ZArith NArith Arith Bool Lia.
From Verif Require Import Base Store_Model Graph_Model Links_Model Links_Spec Ctm_Model Ctm_Spec Ctm_Proofs1.
Import ListNotations.
Local Open Scope res_scope.

Lemma str_eqb_refl : forall a, str_eqb a a = true.
Proof. induction a as [|x a IH]; [reflexivity|]. cbn. rewrite N.eqb_refl, IH. reflexivity. Qed.
Lemma str_eqb_eq : forall a b, str_eqb a b = true -> a = b.
Proof.
  induction a as [|x a IH]; intros [|y b] H; cbn in H; try discriminate; [reflexivity|].
  apply andb_prop in H. destruct H as [H1 H2]. apply N.eqb_eq in H1. rewrite H1, (IH _ H2). reflexivity.
Qed.
Lemma str_eqb_neq : forall a b, a <> b -> str_eqb a b = false.
Proof. intros a b H. destruct (str_eqb a b) eqn:E; [|reflexivity]. apply str_eqb_eq in E. contradiction. Qed.

(** * Addresses *)
Lemma deref_mid : forall A (l : list A) x r, deref (l ++ x :: r) (Some (length l)) = Ok x.
Proof. intros. unfold deref. rewrite nth_error_app2, Nat.sub_diag by lia. reflexivity. Qed.
Lemma deref_at : forall A (l : list A) x r n, n = length l -> deref (l ++ x :: r) (Some n) = Ok x.
Proof. intros. subst. apply deref_mid. Qed.
Lemma put_mid : forall A (l : list A) x r y, put (l ++ x :: r) (length l) y = l ++ y :: r.
Proof. induction l as [|a l IH]; intros; cbn; [reflexivity|]. rewrite IH. reflexivity. Qed.
Lemma put_at : forall A (l : list A) x r y n, n = length l -> put (l ++ x :: r) n y = l ++ y :: r.
Proof. intros. subst. apply put_mid. Qed.

Section Run.
Variable ms : str -> Z.

(** * Lines as lists of words *)
Definition words_step (st : cst) (ws : list str) : res cst :=
    let* bufs := scan (c_bufs st) ws in
    let n := List.length ws in
    let* b := buf bufs 2 in
    let* d := buf bufs 3 in
    let use := if Nat.eqb n 5 then false else if Nat.leb 6 n then true else c_useconf st in
    let st := set_scan st use bufs in
    let* text := buf bufs 4 in
    let* src := buf bufs 0 in
    let* chan := buf bufs 1 in
    let* conf := (if use then let* c := buf bufs 5 in Ok (Some c) else Ok None) in
    act st src chan text (ms b) (ms d) conf.
Fixpoint words_loop (st : cst) (l : list (list str)) : res cst :=
  match l with [] => Ok st | ws :: r => let* st := words_step st ws in words_loop st r end.
Lemma lines_words : forall file st, lines_loop ms st file = words_loop st (data file).
Proof.
  induction file as [|l file IH]; intros st; [reflexivity|]. unfold data. cbn [lines_loop filter].
  unfold line_step. destruct (is_comment l) eqn:E; cbn [negb].
  - cbn [rbind]. apply IH.
  - cbn [map words_loop]. fold (data file). change (rbind (words_step st (line_words l)) (fun st => lines_loop ms st file) =
      rbind (words_step st (line_words l)) (fun st => words_loop st (data file))).
    destruct (words_step st (line_words l)); cbn [rbind]; auto.
Qed.
Lemma words_loop_app : forall a b st, words_loop st (a ++ b) = rbind (words_loop st a) (fun st => words_loop st b).
Proof.
  induction a as [|x a IH]; intros b st; [reflexivity|]. cbn [app words_loop].
  destruct (words_step st x); cbn [rbind]; auto.
Qed.

Lemma buffer_255 : BUFFER_SIZE = 255. Proof. reflexivity. Qed.
Lemma fits_word : forall (w : str), length w < 255 -> Nat.ltb (length w) BUFFER_SIZE = true.
Proof. intros w H. apply Nat.ltb_lt. rewrite buffer_255. exact H. Qed.

Lemma entry_step : forall st ws e, length (c_bufs st) = 6 -> entry_line ws e ->
  exists u bs, length bs = 6 /\
    words_step st ws = act (set_scan st u bs) (e_src e) (e_chan e) (e_text e) (ms (e_begin e)) (ms (e_dur e)) (e_conf e).
Proof.
  intros st ws e Hb (Hs & Ht & He). destruct (c_bufs st) as [|b0 [|b1 [|b2 [|b3 [|b4 [|b5 [|? ?]]]]]]] eqn:Eb; try discriminate Hb.
  unfold words_step. rewrite Eb. destruct (e_conf e) as [c|] eqn:Ec.
  - destruct He as (more & ->). unfold short in Hs. cbn [firstn] in Hs.
    repeat match goal with H : Forall _ (_ :: _) |- _ => inversion H; clear H; subst end.
    cbn [scan]. rewrite !fits_word by assumption. cbn [rbind scan]. cbn [buf nth rbind].
    eexists true, _. split; [|cbn [length Nat.eqb Nat.leb rbind]; reflexivity]. reflexivity.
  - subst ws. unfold short in Hs. cbn [firstn] in Hs.
    repeat match goal with H : Forall _ (_ :: _) |- _ => inversion H; clear H; subst end.
    cbn [scan]. rewrite !fits_word by assumption. cbn [rbind scan]. cbn [buf nth rbind].
    eexists false, _. split; [|cbn [length Nat.eqb rbind]; reflexivity]. reflexivity.
Qed.
Lemma tag_step : forall st ws tag, length (c_bufs st) = 6 -> tag_line ws tag ->
  exists u bs a b c d e, length bs = 6 /\ words_step st ws = act (set_scan st u bs) a b tag c d e.
Proof.
  intros st ws tag Hb (Hs & a & b & c & d & more & ->).
  destruct (c_bufs st) as [|b0 [|b1 [|b2 [|b3 [|b4 [|b5 [|? ?]]]]]]] eqn:Eb; try discriminate Hb.
  unfold words_step. rewrite Eb. unfold short in Hs. destruct more as [|e more]; cbn [firstn] in Hs;
    repeat match goal with H : Forall _ (_ :: _) |- _ => inversion H; clear H; subst end;
    cbn [scan]; rewrite !fits_word by assumption; cbn [rbind scan]; cbn [buf nth rbind length Nat.eqb Nat.leb].
  - exists false. do 6 eexists. split; [|reflexivity]. reflexivity.
  - exists true. do 6 eexists. split; [|reflexivity]. reflexivity.
Qed.

(** What a line of a word does. *)
Lemma act_word : forall st src chan text b d conf, ~ is_tag text ->
  act st src chan text b d conf =
    if c_begin st then word_begin st src chan text b d conf
    else if c_isalt st then word_alt st text b d conf
    else if c_inside st then word_inside st text b d conf
    else if c_isend st then word_end st src chan text b d conf
    else word_outside st src chan text b d conf.
Proof.
  intros. unfold act. rewrite !str_eqb_neq; [reflexivity| | |]; intros E; apply H; unfold is_tag; auto.
Qed.
Lemma act_begin : forall st src chan b d conf, act st src chan ALT_BEGIN b d conf = Ok (set_flags st true true (c_isalt st) (c_isend st)).
Proof. intros. unfold act. rewrite str_eqb_refl. reflexivity. Qed.
Lemma act_end : forall st src chan b d conf, act st src chan ALT_END b d conf = Ok (set_flags st (c_begin st) false (c_isalt st) true).
Proof. intros. unfold act. rewrite (str_eqb_neq ALT_END ALT_BEGIN) by discriminate. rewrite str_eqb_refl. reflexivity. Qed.
Lemma act_alt : forall st src chan b d conf, act st src chan ALT b d conf = Ok (set_flags st (c_begin st) (c_inside st) true (c_isend st)).
Proof.
  intros. unfold act. rewrite (str_eqb_neq ALT ALT_BEGIN), (str_eqb_neq ALT ALT_END) by discriminate. rewrite str_eqb_refl. reflexivity.
Qed.

(** * Invariants *)
Definition from_here (done : list item) (dsegs : list cseg) (st : cst) : Prop :=
  match c_palt st with
  | None => match c_prec st with None => prevs [] (layout done) = [] | Some p => prevs [] (layout done) = [p] end
  | Some i => exists sg, nth_error dsegs i = Some sg /\ cs_last sg = prevs [] (layout done)
  end.
Record segs_ok (done : list item) (dsegs : list cseg) : Prop := {
  so_seg : Forall2 (segment_of ms) done dsegs;
  so_first : map cs_first dsegs = map heads (layout done) }.

Record between (done : list item) (st : cst) : Prop := {
  bt_toks : Forall2 (token_of ms) (entries done) (c_toks st);
  bt_links : c_links st = linked (pairs_of [] (layout done));
  bt_bufs : length (c_bufs st) = 6;
  bt_segs : segs_ok done (c_segs st);
  bt_begin : c_begin st = false; bt_inside : c_inside st = false; bt_alt : c_isalt st = false;
  bt_par : map ct_parent (c_toks st) = map Some (parents done);
  bt_tail :
    (done = [] /\ c_isfirst st = true /\ c_isend st = false /\ c_prec st = None /\ c_alt st = None /\ c_palt st = None) \/
    (c_isfirst st = false /\ c_isend st = false /\ c_alt st = None /\ c_palt st = None /\
       map cs_last (c_segs st) = map lasts (layout done) /\
       exists d e p, done = d ++ [Word e] /\ c_prec st = Some p /\ prevs [] (layout done) = [p]) \/
    (c_isfirst st = false /\ c_isend st = true /\
       exists d alts dsegs s tx tk, done = d ++ [Group alts] /\ c_segs st = dsegs ++ [s] /\
         map cs_last dsegs = map lasts (layout d) /\ c_alt st = Some (length dsegs) /\
         c_toks st = tx ++ [tk] /\ c_ptok st = Some (length tx) /\ (ct_end tk <= cs_end s)%Z /\
         cs_last s ++ [length tx] = prevs [] (layout done)) }.

Record mid (done : list item) (alts : list (list entry)) (cur : list entry) (st : cst) : Prop := {
  md_toks : Forall2 (token_of ms) (entries done ++ concat alts ++ cur) (c_toks st);
  md_bufs : length (c_bufs st) = 6;
  md_cur : cur <> [];
  md_alts : Forall (fun a => a <> []) alts;
  md_isfirst : c_isfirst st = false; md_begin : c_begin st = false; md_inside : c_inside st = true;
  md_isalt : c_isalt st = false; md_isend : c_isend st = false;
  md_links : c_links st = linked (pairs_of [] (layout done) ++
     grp_pairs (prevs [] (layout done)) (alts_at (length (entries done)) (alts ++ [cur])));
  md_par : map ct_parent (c_toks st) = map Some (parents done ++ repeat (length done) (length (concat alts ++ cur)));
  md_rest : exists dsegs s tx tk, c_segs st = dsegs ++ [s] /\ segs_ok done dsegs /\
     map cs_last dsegs = map lasts (layout done) /\
     segment_of ms (Group (alts ++ [cur])) s /\
     cs_first s = heads (alts_at (length (entries done)) (alts ++ [cur])) /\
     cs_last s = lasts (alts_at (length (entries done)) alts) /\
     c_alt st = Some (length dsegs) /\ c_toks st = tx ++ [tk] /\ c_ptok st = Some (length tx) /\ (ct_end tk <= cs_end s)%Z /\
     from_here done dsegs st }.
End Run.
