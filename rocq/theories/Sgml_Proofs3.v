(** The tags of a report as they are read. *)
From Coq Require Import String Ascii.
From Coq Require Import List ZArith NArith Arith Bool Lia.
From Verif Require Import Base Text_Model Text_Spec Text_Proofs1 Sgml_Model Sgml_Spec Sgml_Proofs1 Sgml_Proofs2.
From Verif Require Read_Model Word_Model Scores_Model.
Import ListNotations.
Local Open Scope res_scope.
Local Open Scope list_scope.

Lemma teqB e a b : forallb plain (B a) = true -> forallb plain (B b) = true -> teq e (B a) (B b) = Ok (String.eqb a b).
Proof.
  intros Ha Hb. rewrite teq_ok by (apply text_plain; assumption). f_equal. destruct (String.eqb_spec a b) as [->|NE]; [apply same_refl|].
  apply same_neq. intro E. apply NE, B_inj, E.
Qed.

(** ** The attributes of each tag *)
Definition flag1 (b : bool) (n : string) (v : str) : atts := if b then [(n, v)] else [].
Definition opt1 (n : string) (s : option str) : atts := match s with Some s => [(n, s)] | None => [] end.
Definition path_atts (p : rpath) : atts :=
  let fl := pa_flags p in
  flag1 true "id" (pa_id p) ++ flag1 true "word_cnt" (int_text (Z.of_nat (length (pa_set p))))
  ++ opt1 "labels" (pa_labels p) ++ opt1 "file" (pa_file p) ++ opt1 "channel" (pa_channel p)
  ++ flag1 true "sequence" (int_text (pa_seq p))
  ++ flag1 (f_rt fl) "R_T1" (fixed 3 (pa_rt1 p)) ++ flag1 (f_rt fl) "R_T2" (fixed 3 (pa_rt2 p))
  ++ flag1 (f_ht fl) "H_T1" (fixed 3 (pa_ht1 p)) ++ flag1 (f_ht fl) "H_T2" (fixed 3 (pa_ht2 p))
  ++ flag1 (f_char fl) "char_align" (B "1") ++ flag1 (f_case fl) "case_sense" (B "1")
  ++ flag1 (f_hwgt fl) "hyp_weight" (B "1") ++ flag1 (f_rwgt fl) "ref_weight" (B "1")
  ++ flag1 (match aux_names fl with [] => false | _ => true end) "word_aux" (commas (aux_names fl)).
Lemma tagtext_flag1 b n v : tagtext (flag1 b n v) = flag_attr b n v.
Proof. destruct b; [apply app_nil_r|reflexivity]. Qed.
Lemma tagtext_opt1 n s : tagtext (opt1 n s) = opt_attr n s.
Proof. destruct s; [apply app_nil_r|reflexivity]. Qed.
Lemma path_tag_text p : path_tag p = B "<" ++ B "PATH" ++ tagtext (path_atts p) ++ B ">" ++ NL.
Proof.
  unfold path_tag, path_atts. cbv zeta. rewrite !tagtext_app, !tagtext_flag1, !tagtext_opt1, <- !app_assoc. reflexivity.
Qed.
Lemma lk_flag1 b n v m : lk (flag1 b n v) m = if String.eqb n m then if b then Some v else None else None.
Proof. destruct b; cbn [flag1 lk]; destruct (String.eqb n m); reflexivity. Qed.
Lemma lk_opt1 n s m : lk (opt1 n s) m = if String.eqb n m then s else None.
Proof. destruct s; cbn [opt1 lk]; destruct (String.eqb n m); reflexivity. Qed.
Lemma ok_flag1 e b n v : okname n = true -> (b = true -> field e v) -> Forall (okatt e) (flag1 b n v).
Proof. intros Hn Hv. destruct b; [|constructor]. constructor; [|constructor]. split; [exact Hn|apply Hv; reflexivity]. Qed.
Lemma ok_opt1 e n s : okname n = true -> opt_field e s -> Forall (okatt e) (opt1 n s).
Proof. intros Hn Hv. destruct s; [|constructor]. constructor; [|constructor]. split; [exact Hn|exact Hv]. Qed.

(** ** word_aux *)
Definition kinds (fl : flags) : list aux :=
  (if f_rwt fl then [ART] else []) ++ (if f_hwt fl then [AHT] else []) ++ (if f_rconf fl then [ARC] else [])
  ++ (if f_hconf fl then [AHC] else []) ++ (if f_rwgt fl then [ARW] else []) ++ (if f_hwgt fl then [AHW] else []).
Definition aname (a : aux) : string :=
  match a with ART => "r_t1+t2" | AHT => "h_t1+t2" | ARC => "r_conf" | AHC => "h_conf" | ARW => "r_weight" | AHW => "h_weight"
             | ASPKR => "h_spkr" | AISSUB => "h_isSpkrSub" end.
Definition setf (f : flags) (a : aux) : flags :=
  match a with ART => set_rwt f | AHT => set_hwt f | ARC => set_rconf f | AHC => set_hconf f | ARW => set_rwgt f | AHW => set_hwgt f | _ => f end.
Lemma aux_names_kinds fl : aux_names fl = map (fun a => B (aname a)) (kinds fl).
Proof. unfold aux_names, kinds. rewrite !map_app. destruct fl as [? ? [] [] ? ? [] [] [] []]; reflexivity. Qed.
Lemma kinds_len fl : length (kinds fl) <= 6.
Proof. unfold kinds. destruct fl as [? ? [] [] ? ? [] [] [] []]; cbn; lia. Qed.

Lemma aux_item_ok e a r fl : forallb plain r = true ->
  aux_item e (cstr (B (aname a) ++ r)) fl = Ok (setf fl a, [a]).
Proof.
  intros Hr. assert (HP : forallb plain (B (aname a) ++ r) = true).
  { rewrite forallb_app, Hr, andb_true_r. destruct a; reflexivity. }
  unfold aux_item. destruct a; repeat (rewrite starts_ok; [|exact HP|reflexivity|lia|reflexivity]; cbn [rbind]; cbn [B map list_ascii_of_string aname app prefix N_of_ascii N_of_digits N.eqb Pos.eqb andb]); cbn; reflexivity.
Qed.

Lemma commas_plain l : forallb plain (commas (map (fun a => B (aname a)) l)) = true.
Proof.
  induction l as [|a l IH]; [reflexivity|]. destruct l as [|b l]; [destruct a; reflexivity|].
  cbn [map commas] in *. rewrite !forallb_app, IH. destruct a; reflexivity.
Qed.
Lemma aux_loop_ok e l : forall f fl fields, length fields + length l <= 50 -> length l < f ->
  aux_loop f e (cstr (commas (map (fun a => B (aname a)) l))) fl fields = Ok (fold_left setf l fl, fields ++ l).
Proof.
  induction l as [|a l IH]; intros f fl fields Hl Hf; (destruct f as [|f]; [cbn in Hf; lia|]); cbn [aux_loop].
  - cbn. rewrite app_nil_r. reflexivity.
  - assert (R : forall x, exists c, rd (B (aname a) ++ x) = Ok c /\ c <> 0%N) by (intros x; destruct a; eexists; split; try reflexivity; discriminate).
    assert (NC : ~ In 44%N (B (aname a)) /\ ~ In 0%N (B (aname a))).
    { split; intro I; assert (Q : forallb (fun b => negb (b =? 44)%N && negb (b =? 0)%N) (B (aname a)) = true) by (destruct a; reflexivity);
        rewrite forallb_forall in Q; specialize (Q _ I); discriminate. }
    cbn [length] in Hl, Hf. destruct l as [|b l].
    + cbn [map commas]. unfold cstr. destruct (R [0%N]) as (c & -> & Hc). cbn [rbind]. destruct (N.eqb_spec c 0); [contradiction|].
      destruct (Nat.eqb_spec (length fields) 50); [lia|].
      rewrite strchr_none by (tauto || lia). cbn [rbind]. rewrite strlen_ok by tauto. cbn [rbind].
      replace (B (aname a) ++ [0%N]) with (cstr (B (aname a) ++ [])) at 1 by (rewrite app_nil_r; reflexivity).
      rewrite aux_item_ok by reflexivity. cbn [rbind]. rewrite adv_app. cbn [rbind rd].
      destruct f as [|f]; [cbn in Hf; lia|]. reflexivity.
    + change (commas (map (fun a0 => B (aname a0)) (a :: b :: l))) with (B (aname a) ++ 44%N :: commas (map (fun a0 => B (aname a0)) (b :: l))).
      set (u := commas (map (fun a0 => B (aname a0)) (b :: l))) in *.
      unfold cstr. rewrite <- app_assoc. cbn [app]. destruct (R (44%N :: u ++ [0%N])) as (c & -> & Hc). cbn [rbind]. destruct (N.eqb_spec c 0); [contradiction|].
      destruct (Nat.eqb_spec (length fields) 50); [lia|].
      rewrite strchr_found by tauto. cbn [rbind].
      replace (B (aname a) ++ 44%N :: u ++ [0%N]) with (cstr (B (aname a) ++ 44%N :: u)) at 1 by (unfold cstr; rewrite <- app_assoc; reflexivity).
      rewrite aux_item_ok by (cbn [forallb]; apply andb_true_iff; split; [reflexivity|apply commas_plain]). cbn [rbind]. rewrite adv_app. cbn [rbind rd].
      change (44 =? 44)%N with true. cbv iota. cbn [tl]. change (u ++ [0%N]) with (cstr u). rewrite IH; [|rewrite app_length; cbn [length] in *; lia|cbn [length] in *; lia].
      cbn [fold_left]. rewrite <- app_assoc. reflexivity.
Qed.

Lemma path_atts_ok e p : path_ok e p -> Forall (okatt e) (path_atts p).
Proof.
  intros (H1 & H2 & H3 & H4 & _). unfold path_atts. cbv zeta.
  repeat (apply Forall_app; split); try (apply ok_opt1; [reflexivity|assumption]); apply ok_flag1; try reflexivity; intros _;
    try assumption; try (apply field_numeric; apply int_bytes); try (apply field_numeric; apply fixed_bytes); try (apply field_plain; reflexivity).
  rewrite aux_names_kinds. generalize (kinds (pa_flags p)). intros l. apply field_plain. clear.
  induction l as [|a l IH]; [reflexivity|]. destruct l as [|b l]; [destruct a; reflexivity|].
  cbn [map commas] in *. rewrite !forallb_app, IH. destruct a; reflexivity.
Qed.
Lemma path_atts_len p : length (path_atts p) <= 16.
Proof.
  unfold path_atts. cbv zeta. rewrite !app_length.
  assert (F : forall b n v, length (flag1 b n v) <= 1) by (intros []; cbn; auto).
  assert (O : forall n s, length (opt1 n s) <= 1) by (intros n []; cbn; auto).
  repeat match goal with
    | |- context [length (flag1 ?b ?n ?v)] => let x := fresh in pose proof (F b n v) as x; set (length (flag1 b n v)) in *; clearbody n0 || (generalize dependent (length (flag1 b n v)); intros)
    end.
  all: pose proof (O "labels"%string (pa_labels p)); pose proof (O "file"%string (pa_file p)); pose proof (O "channel"%string (pa_channel p)); lia.
Qed.

(** The path that a tag of a path opens: it has room for its entries. *)
Definition opened (p : rpath) (l : list entry) : rpath :=
  {| pa_id := pa_id p; pa_labels := or_none (pa_labels p); pa_file := or_none (pa_file p); pa_channel := or_none (pa_channel p);
     pa_seq := pa_seq p; pa_flags := pa_flags p;
     pa_rt1 := if f_rt (pa_flags p) then pa_rt1 p else 0%Z; pa_rt2 := if f_rt (pa_flags p) then pa_rt2 p else 0%Z;
     pa_ht1 := if f_ht (pa_flags p) then pa_ht1 p else 0%Z; pa_ht2 := if f_ht (pa_flags p) then pa_ht2 p else 0%Z; pa_set := l |}.
Definition room (n : nat) : nat := Z.to_nat (if (Z.of_nat n <? 4)%Z then 5 else Z.of_nat n).
Lemma room_enough n : n <= room n.
Proof. unfold room. destruct (Z.ltb_spec (Z.of_nat n) 4); lia. Qed.
Definition fields_after (fl : flags) (fields : list aux) : list aux := match kinds fl with [] => fields | k => k end.

Ltac lk_simp := unfold path_atts; cbv zeta; rewrite !lk_app, ?lk_flag1, ?lk_opt1; cbn [String.eqb Ascii.eqb Bool.eqb].
Lemma begin_path_ok e p fields : path_ok e p ->
  begin_path e (pairs (path_atts p)) fields =
  Ok ({| o_path := opened p []; o_max := room (length (pa_set p)) |}, fields_after (pa_flags p) fields).
Proof.
  intros HP. pose proof (path_atts_ok e p HP) as HA. unfold begin_path.
  assert (L1 : lk (path_atts p) "word_cnt" = Some (int_text (Z.of_nat (length (pa_set p))))) by (lk_simp; reflexivity).
  assert (L2 : lk (path_atts p) "labels" = pa_labels p) by (lk_simp; destruct (pa_labels p); reflexivity).
  assert (L3 : lk (path_atts p) "file" = pa_file p) by (lk_simp; destruct (pa_file p); reflexivity).
  assert (L4 : lk (path_atts p) "channel" = pa_channel p) by (lk_simp; destruct (pa_channel p); reflexivity).
  assert (L5 : lk (path_atts p) "sequence" = Some (int_text (pa_seq p))) by (lk_simp; reflexivity).
  assert (L6 : lk (path_atts p) "id" = Some (pa_id p)) by (lk_simp; reflexivity).
  assert (L7 : lk (path_atts p) "word_aux" = match aux_names (pa_flags p) with [] => None | _ => Some (commas (aux_names (pa_flags p))) end)
    by (lk_simp; destruct (aux_names (pa_flags p)); reflexivity).
  rewrite (get_attrib_ok e _ "word_cnt") by (exact HA || reflexivity). rewrite L1. cbn [rbind dflt]. rewrite atof_int. cbn [rbind].
  rewrite (opt_text_ok e _ "labels") by (exact HA || reflexivity). rewrite L2. cbn [rbind].
  rewrite (get_attrib_ok e _ "id") by (exact HA || reflexivity). rewrite L6. cbn [rbind dflt].
  rewrite (opt_text_ok e _ "file") by (exact HA || reflexivity). rewrite L3. cbn [rbind].
  rewrite (opt_text_ok e _ "channel") by (exact HA || reflexivity). rewrite L4. cbn [rbind].
  rewrite (opt_text_ok e _ "sequence") by (exact HA || reflexivity). rewrite L5. cbn [rbind].
  rewrite (time_attr_ok e _ "R_T1" (f_rt (pa_flags p)) (pa_rt1 p)) by (try exact HA; try reflexivity; lk_simp; destruct (f_rt (pa_flags p)); reflexivity). cbn [rbind].
  rewrite (time_attr_ok e _ "R_T2" (f_rt (pa_flags p)) (pa_rt2 p)) by (try exact HA; try reflexivity; lk_simp; destruct (f_rt (pa_flags p)); reflexivity). cbn [rbind].
  rewrite (time_attr_ok e _ "H_T1" (f_ht (pa_flags p)) (pa_ht1 p)) by (try exact HA; try reflexivity; lk_simp; destruct (f_ht (pa_flags p)); reflexivity). cbn [rbind].
  rewrite (time_attr_ok e _ "H_T2" (f_ht (pa_flags p)) (pa_ht2 p)) by (try exact HA; try reflexivity; lk_simp; destruct (f_ht (pa_flags p)); reflexivity). cbn [rbind].
  assert (LF : forall n b, lk (path_atts p) n = (if b : bool then Some (B "1") else None) -> okname n = true -> given e (pairs (path_atts p)) n = Ok b).
  { intros n b E Hn. rewrite given_ok by assumption. rewrite E. destruct b; reflexivity. }
  rewrite (LF "char_align"%string (f_char (pa_flags p))) by (try reflexivity; lk_simp; destruct (f_char (pa_flags p)); reflexivity). cbn [rbind].
  rewrite (LF "case_sense"%string (f_case (pa_flags p))) by (try reflexivity; lk_simp; destruct (f_case (pa_flags p)); reflexivity). cbn [rbind].
  rewrite (LF "hyp_weight"%string (f_hwgt (pa_flags p))) by (try reflexivity; lk_simp; destruct (f_hwgt (pa_flags p)); reflexivity). cbn [rbind].
  rewrite (LF "ref_weight"%string (f_rwgt (pa_flags p))) by (try reflexivity; lk_simp; destruct (f_rwgt (pa_flags p)); reflexivity). cbn [rbind].
  rewrite (get_attrib_ok e _ "word_aux") by (exact HA || reflexivity). cbn [rbind].
  rewrite teq_ok by (apply dflt_text, HA || apply text_nil). rewrite L7. cbn [rbind].
  assert (HS : or_none (Some (int_text (pa_seq p))) = Some (int_text (pa_seq p))).
  { destruct (int_text (pa_seq p)) eqn:E; [|reflexivity]. exfalso. unfold int_text in E. apply app_eq_nil in E as [_ E]. exact (proj2 (proj2 (nat_text_ok _)) E). }
  rewrite HS. cbn [or_none]. rewrite atoi_int. unfold fields_after, opened, room. rewrite aux_names_kinds.
  assert (EQ : forall x : res (flags * list aux), (x = Ok (pa_flags p, match kinds (pa_flags p) with [] => fields | k => k end)) ->
     (let* (fl, fields0) := x in
      Ok ({| o_path := {| pa_id := pa_id p; pa_labels := or_none (pa_labels p); pa_file := or_none (pa_file p); pa_channel := or_none (pa_channel p);
          pa_seq := pa_seq p; pa_flags := fl;
          pa_rt1 := or0 (if f_rt (pa_flags p) then Some (pa_rt1 p) else None); pa_rt2 := or0 (if f_rt (pa_flags p) then Some (pa_rt2 p) else None);
          pa_ht1 := or0 (if f_ht (pa_flags p) then Some (pa_ht1 p) else None); pa_ht2 := or0 (if f_ht (pa_flags p) then Some (pa_ht2 p) else None); pa_set := [] |};
          o_max := Z.to_nat (if (Z.of_nat (length (pa_set p)) <? 4)%Z then 5%Z else Z.of_nat (length (pa_set p))) |}, fields0)) =
      Ok ({| o_path := {| pa_id := pa_id p; pa_labels := or_none (pa_labels p); pa_file := or_none (pa_file p); pa_channel := or_none (pa_channel p);
          pa_seq := pa_seq p; pa_flags := pa_flags p;
          pa_rt1 := if f_rt (pa_flags p) then pa_rt1 p else 0%Z; pa_rt2 := if f_rt (pa_flags p) then pa_rt2 p else 0%Z;
          pa_ht1 := if f_ht (pa_flags p) then pa_ht1 p else 0%Z; pa_ht2 := if f_ht (pa_flags p) then pa_ht2 p else 0%Z; pa_set := [] |};
          o_max := Z.to_nat (if (Z.of_nat (length (pa_set p)) <? 4)%Z then 5%Z else Z.of_nat (length (pa_set p))) |},
          match kinds (pa_flags p) with [] => fields | k => k end)).
  { intros x ->. cbn [rbind]. destruct (f_rt (pa_flags p)), (f_ht (pa_flags p)); reflexivity. }
  apply EQ. clear EQ. destruct (pa_flags p) as [b1 b2 b3 b4 b5 b6 b7 b8 b9 b10] eqn:EF. cbn [f_rt f_ht f_char f_case f_hwgt f_rwgt].
  rewrite <- EF. destruct (kinds (pa_flags p)) as [|a k] eqn:EK.
  - cbn [map dflt]. rewrite same_refl. f_equal. f_equal. rewrite EF in *. unfold kinds in EK. cbn [f_rwt f_hwt f_rconf f_hconf f_rwgt f_hwgt] in EK.
    destruct b3, b4, b7, b8, b9, b10; try discriminate EK. destruct b5, b6; reflexivity.
  - assert (ED : dflt (match map (fun a0 => B (aname a0)) (a :: k) with [] => None | _ => Some (commas (map (fun a0 => B (aname a0)) (a :: k))) end)
       = commas (map (fun a0 => B (aname a0)) (a :: k))) by reflexivity.
    rewrite ED. rewrite same_neq by (destruct a, k as [|? ?]; discriminate).
    rewrite aux_loop_ok.
    + cbn [rbind app]. f_equal. f_equal. rewrite <- EK. rewrite EF. destruct b3, b4, b5, b6, b7, b8, b9, b10; reflexivity.
    + pose proof (kinds_len (pa_flags p)) as KL. rewrite EK in KL. cbn [length] in *. lia.
    + clear. apply Nat.lt_succ_r. generalize (a :: k). clear. induction l as [|x l IH]; [cbn; lia|].
      destruct l as [|y l]; [destruct x; cbn; lia|].
      change (commas (map (fun a0 => B (aname a0)) (x :: y :: l))) with (B (aname x) ++ 44%N :: commas (map (fun a0 => B (aname a0)) (y :: l))).
      rewrite app_length. cbn [length] in *. lia.
Qed.

(** ** The tag of a system *)
Definition sys_atts (r : report) (f h d w : str) : atts :=
  [("title", r_title r); ("ref_fname", f); ("hyp_fname", h); ("creation_date", d); ("format", B "2.4"); ("frag_corr", truth (r_frag r));
   ("opt_del", truth (r_opt r)); ("weight_ali", truth (r_wali r)); ("weight_filename", w)]%string.
Definition opened_sys (r : report) : report :=
  {| r_title := r_title r; r_ref := r_ref r; r_hyp := r_hyp r; r_date := r_date r; r_frag := r_frag r; r_opt := r_opt r; r_wali := r_wali r;
     r_wfile := if r_wali r then r_wfile r else None; r_labels := []; r_cats := []; r_grps := [] |}.
Lemma sys_atts_ok e r f h d w : field e (r_title r) -> field e f -> field e h -> field e d -> field e w -> Forall (okatt e) (sys_atts r f h d w).
Proof.
  intros. unfold sys_atts. assert (T : forall b, field e (truth b)) by (intros []; apply field_plain; reflexivity).
  repeat (apply Forall_cons; [split; [reflexivity|cbn [snd]]|]); try apply Forall_nil; try assumption; try apply T. apply field_plain; reflexivity.
Qed.
Lemma truth_ok e b : teq e (truth b) (B "TRUE") = Ok b.
Proof. destruct b; [exact (teqB e "TRUE" "TRUE" eq_refl eq_refl)|exact (teqB e "FALSE" "TRUE" eq_refl eq_refl)]. Qed.
Lemma begin_system_ok e r f h d w : field e (r_title r) -> field e f -> field e h -> field e d -> field e w -> f <> [] -> h <> [] -> d <> [] ->
  r_ref r = Some f -> r_hyp r = Some h -> r_date r = Some d -> (r_wali r = true -> r_wfile r = Some w) ->
  begin_system e (pairs (sys_atts r f h d w)) = Ok (opened_sys r).
Proof.
  intros Ht Hf Hh Hd Hw Nf Nh Nd Ef Eh Ed Ew. pose proof (sys_atts_ok e r f h d w Ht Hf Hh Hd Hw) as HA. unfold begin_system.
  assert (G : forall n v, lk (sys_atts r f h d w) n = Some v -> okname n = true -> get_attrib e (pairs (sys_atts r f h d w)) (B n) = Ok v).
  { intros n v E Hn. rewrite get_attrib_ok by assumption. rewrite E. reflexivity. }
  rewrite (G "title"%string (r_title r)) by reflexivity. cbn [rbind].
  rewrite (G "ref_fname"%string f) by reflexivity. cbn [rbind]. rewrite teq_ok by (apply Hf || apply text_nil). cbn [rbind]. rewrite (same_neq f []) by exact Nf.
  rewrite (G "hyp_fname"%string h) by reflexivity. cbn [rbind]. rewrite teq_ok by (apply Hh || apply text_nil). cbn [rbind]. rewrite (same_neq h []) by exact Nh.
  rewrite (G "creation_date"%string d) by reflexivity. cbn [rbind]. rewrite teq_ok by (apply Hd || apply text_nil). cbn [rbind]. rewrite (same_neq d []) by exact Nd.
  rewrite (G "frag_corr"%string (truth (r_frag r))) by reflexivity. cbn [rbind]. rewrite truth_ok. cbn [rbind].
  rewrite (G "opt_del"%string (truth (r_opt r))) by reflexivity. cbn [rbind]. rewrite truth_ok. cbn [rbind].
  rewrite (G "weight_ali"%string (truth (r_wali r))) by reflexivity. cbn [rbind]. rewrite truth_ok. cbn [rbind].
  rewrite (G "weight_filename"%string w) by reflexivity. cbn [rbind]. unfold opened_sys. rewrite Ef, Eh, Ed.
  destruct (r_wali r); [rewrite Ew by reflexivity|]; reflexivity.
Qed.

(** ** Labels *)
Lemma strccmp_prefix e a r lit n : forallb plain a = true -> text e r -> forallb plain lit = true -> length a = length lit -> (1 <= n)%Z -> n = Z.of_nat (length lit) ->
  exists z, strccmp e (cstr (a ++ r)) (cstr lit) n = Ok z /\ (z =? 0)%Z = Scores_Model.same a lit.
Proof.
  intros Ha (cs & (-> & F) & _) Hl EL Hn En.
  pose proof (singles e a Ha) as [Ea Fa]. pose proof (singles e lit Hl) as [El Fl].
  rewrite (strccmp_lex e _ _ (a ++ concat cs) lit (map (fun b => [b]) a ++ cs) (map (fun b => [b]) lit) n).
  - eexists. split; [reflexivity|]. destruct (Z.eqb_spec n (-1)); [lia|]. rewrite En, Nat2Z.id.
    rewrite firstn_app, map_length, EL, Nat.sub_diag. cbn [firstn]. rewrite app_nil_r.
    rewrite !firstn_all2 by (rewrite map_length; lia). apply eq_true_iff_eq. rewrite lex_ccmp_eq. split.
    + intros E. assert (a = lit) as -> by (rewrite Ea, El, E; reflexivity). apply same_refl.
    + intros E. apply same_eq in E. subst. reflexivity.
  - split; [|exists []; reflexivity]. intro I. apply in_app_or in I as [I|I]; [exact (plain_no0 a Ha I)|exact (chars_no0 e cs F I)].
  - split; [apply plain_no0; exact Hl|exists []; reflexivity].
  - split; [rewrite concat_app, <- Ea; reflexivity|apply Forall_app; auto].
  - split; assumption.
  - lia.
Qed.
Lemma next_quoted_ok e pre v m : ~ In 34%N pre -> ~ In 0%N pre -> field e v ->
  next_quoted (pre ++ 34%N :: v ++ 34%N :: m) = Ok (Some (v, m)).
Proof.
  intros H1 H2 Hv. pose proof (field_no0 e v Hv). unfold next_quoted. rewrite strchr_found by assumption. cbn [rbind]. rewrite adv_plus. cbn [rbind].
  rewrite strchr_found by (apply Hv || assumption). cbn [rbind]. rewrite bdup_ok by assumption. cbn [rbind]. rewrite adv_plus. reflexivity.
Qed.
Lemma same_label_ok e a b : label_ok e a -> label_ok e b -> exists s, same_label e a b = Ok s /\ (s = true <-> a = b).
Proof.
  intros (A1 & A2 & A3 & _) (B1 & B2 & B3 & _). unfold same_label.
  rewrite teq_ok by (apply A1 || apply B1). cbn [rbind]. destruct (Scores_Model.same (lb_id a) (lb_id b)) eqn:E1; cbn [negb].
  2:{ exists false. split; [reflexivity|]. split; [discriminate|]. intros ->. rewrite same_refl in E1. discriminate. }
  rewrite teq_ok by (apply A2 || apply B2). cbn [rbind]. destruct (Scores_Model.same (lb_title a) (lb_title b)) eqn:E2; cbn [negb].
  2:{ exists false. split; [reflexivity|]. split; [discriminate|]. intros ->. rewrite same_refl in E2. discriminate. }
  rewrite teq_ok by (apply A3 || apply B3). eexists. split; [reflexivity|]. apply same_eq in E1, E2. split.
  - intros E3. apply same_eq in E3. destruct a, b; cbn in *; congruence.
  - intros ->. apply same_refl.
Qed.
Lemma is_new_ok e x l : label_ok e x -> Forall (label_ok e) l -> exists b, is_new e x l = Ok b /\ (b = true <-> ~ In x l).
Proof.
  intros Hx HL. induction HL as [|y l Hy HL (b & E & Hb)]; cbn [is_new].
  - exists true. split; [reflexivity|]. cbn. tauto.
  - destruct (same_label_ok e x y Hx Hy) as (s & -> & Hs). cbn [rbind]. rewrite E. cbn [rbind]. eexists. split; [reflexivity|].
    cbn [In]. rewrite andb_true_iff, negb_true_iff, Hb. split.
    + intros [H1 H2] [->|I]; [|exact (H2 I)]. assert (s = true) by (apply Hs; reflexivity). congruence.
    + intros H. split; [|tauto]. destruct s; [|reflexivity]. exfalso. apply H. left. symmetry. apply Hs. reflexivity.
Qed.
Definition label_dec (a b : label) : {a = b} + {a <> b}.
Proof. decide equality; apply (list_eq_dec N.eq_dec). Defined.
Definition label_line (name : string) (x : label) : str :=
  B ";; " ++ B name ++ attr "id" (lb_id x) ++ attr "title" (lb_title x) ++ attr "desc" (lb_desc x) ++ NL.
Lemma add_label_ok e name x l : forallb nameb (B name) = true -> label_ok e x -> Forall (label_ok e) l ->
  add_label e l (cstr (label_line name x)) = Ok (if in_dec label_dec x l then l else l ++ [x]).
Proof.
  intros HN Hx HL. pose proof Hx as (F1 & F2 & F3 & _). unfold add_label, label_line, attr, cstr.
  rewrite <- !app_assoc.
  assert (NQ : ~ In 34%N (B ";; " ++ B name ++ B " " ++ B "id" ++ B "=") /\ ~ In 0%N (B ";; " ++ B name ++ B " " ++ B "id" ++ B "=")).
  { assert (Q : forallb (fun b => negb (b =? 34)%N && negb (b =? 0)%N) (B ";; " ++ B name ++ B " " ++ B "id" ++ B "=") = true).
    { rewrite !forallb_app. apply andb_true_iff. split; [reflexivity|]. apply andb_true_iff. split; [|reflexivity].
      apply forallb_forall. intros b Hb. rewrite forallb_forall in HN. specialize (HN b Hb). apply nameb_plain in HN.
      rewrite andb_true_iff, !negb_true_iff, !N.eqb_neq. lia. }
    rewrite forallb_forall in Q. split; intro I; specialize (Q _ I); discriminate. }
  match goal with |- context [next_quoted ?m] =>
    match m with context [QUOTE ++ lb_id x ++ QUOTE ++ ?t] =>
      replace m with ((B ";; " ++ B name ++ B " " ++ B "id" ++ B "=") ++ 34%N :: lb_id x ++ 34%N :: t) by (rewrite <- !app_assoc; reflexivity) end end.
  rewrite (next_quoted_ok e) by tauto. cbn [rbind].
  match goal with |- context [next_quoted ?m] =>
    match m with context [QUOTE ++ lb_title x ++ QUOTE ++ ?t] =>
      change m with ((B " " ++ B "title" ++ B "=") ++ 34%N :: lb_title x ++ 34%N :: t) end end.
  rewrite (next_quoted_ok e); [|cbn; lia|cbn; lia|assumption]. cbn [rbind].
  match goal with |- context [next_quoted ?m] =>
    match m with context [QUOTE ++ lb_desc x ++ QUOTE ++ ?t] =>
      change m with ((B " " ++ B "desc" ++ B "=") ++ 34%N :: lb_desc x ++ 34%N :: t) end end.
  rewrite (next_quoted_ok e); [|cbn; lia|cbn; lia|assumption]. cbn [rbind].
  replace {| lb_id := lb_id x; lb_title := lb_title x; lb_desc := lb_desc x |} with x by (destruct x; reflexivity).
  destruct (is_new_ok e x l Hx HL) as (b & -> & Hb). cbn [rbind]. f_equal.
  destruct (in_dec _ x l) as [I|I]; destruct b; try reflexivity; exfalso; [apply (proj1 Hb eq_refl I)|].
  assert (false = true) by (apply Hb; exact I). discriminate.
Qed.
