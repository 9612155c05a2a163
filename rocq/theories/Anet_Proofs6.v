(** The words of texts of ordinary characters. *)
From Coq Require Import List NArith ZArith Arith Bool Lia.
From Verif Require Import Base Net_Model Net_Spec NetDp_Model NetDp_Spec Text_Model Text_Spec Text_Proofs1 Text_Proofs4 Word_Model Word_Spec Word_Proofs Word_Thm Anet_Model Anet_Spec Anet_Proofs4 Anet_Proofs5.
Import ListNotations.

Lemma esc_id s : ~ In 59%N s -> esc 59 s = s.
Proof.
  induction s as [|b s IH]; intros H; [reflexivity|]. unfold esc in *. cbn [flat_map]. destruct (N.eqb_spec b 59) as [->|]; [exfalso; apply H; left; reflexivity|].
  cbn [app]. f_equal. apply IH. intros K. apply H. right. exact K.
Qed.
Lemma not_in_concat x (cs : list (list N)) : Forall (fun c => ~ In x c) cs -> ~ In x (concat cs).
Proof. intros H K. apply in_concat in K. destruct K as (c & Hc & Hx). rewrite Forall_forall in H. apply (H c); assumption. Qed.

Lemma lead_brace e tok : Forall (is_char e) tok -> (forall t, tok <> [123%N] :: t) -> ~ exists r, concat tok = 123%N :: r.
Proof.
  intros HC HN (r & E). destruct tok as [|c tok]; [discriminate|]. inversion_clear HC as [|? ? H _].
  destruct H as (b & k & -> & SZ & _). cbn [concat app] in E. injection E as -> _.
  apply (HN tok). f_equal. cbn [length] in SZ. destruct k as [|k0 k]; [reflexivity|]. exfalso. destruct e; cbn [char_size length] in SZ; lia.
Qed.

Lemma new_word_value t : unstarred t (w_value (new_word t 0 0 false false (-1000))).
Proof.
  unfold new_word, unstarred; cbn [w_value]. destruct t as [|a [|b t]].
  - right. split; [reflexivity|]. intros (x & r & E). discriminate.
  - right. split; [reflexivity|]. intros (x & r & E). injection E as _ E. destruct r; discriminate.
  - destruct (N.eqb_spec (last (a :: b :: t) 0%N) 42) as [E|E].
    + left. exists a, (removelast (b :: t)). split; [|reflexivity]. f_equal.
      rewrite (app_removelast_last (l := b :: t) 0%N) at 1 by discriminate. f_equal. f_equal. exact E.
    + right. split; [reflexivity|]. intros (x & r & K). injection K as _ K. apply E.
      assert (L : last (a :: b :: t) 0%N = last (b :: t) 0%N) by reflexivity. rewrite L, K. apply last_last.
Qed.
Lemma unstarred_good e tok v : tok <> [] -> Forall (is_char e) tok -> Forall high_multibyte tok -> unstarred (concat tok) v -> good_text e v.
Proof.
  intros NE HC HH [(b & r & E & ->)|(-> & _)].
  - split; [discriminate|]. destruct (exists_last NE) as (tok' & c & ->). rewrite concat_app in E. cbn [concat] in E. rewrite app_nil_r in E.
    apply Forall_app in HC. destruct HC as [HC1 HC2]. inversion_clear HC2 as [|? ? Hc _]. apply Forall_app in HH. destruct HH as [_ HH2]. inversion_clear HH2 as [|? ? Hm _].
    assert (c = [42%N]).
    { destruct Hc as (b0 & k & Ec & _ & _). destruct (list_eq_dec N.eq_dec k []) as [->|Nk].
      - subst c. rewrite app_comm_cons in E. apply app_inj_tail in E. destruct E as [_ ->]. reflexivity.
      - exfalso. destruct (exists_last Nk) as (k' & z & ->). subst c. rewrite (app_comm_cons k' [z] b0), app_assoc, app_comm_cons in E. apply app_inj_tail in E. destruct E as [_ ->].
        assert (K : Forall (fun b => (0x80 <= b)%N) (b0 :: k' ++ [42%N])) by (apply Hm; cbn [length]; rewrite app_length; cbn [length]; lia).
        apply Forall_inv_tail in K. apply Forall_app in K. destruct K as [_ K]. inversion_clear K as [|? ? K1 _]. lia. }
    subst c. rewrite app_comm_cons in E. apply app_inj_tail in E. destruct E as [E _].
    exists tok'. split; [symmetry; exact E|exact HC1].
  - split.
    + destruct tok as [|c tok]; [congruence|]. inversion_clear HC as [|? ? H _]. destruct H as (b & k & -> & _). discriminate.
    + exists tok. split; [reflexivity|exact HC].
Qed.
Lemma plain_stands e tok rest : plain_word tok rest -> Forall (is_char e) tok -> Forall ordinary tok ->
  exists w, stands_for e tok w /\ unstarred (concat tok) (w_value w) /\ good_word e w.
Proof.
  intros (NE & NB & _ & _) HC HO.
  assert (HH : Forall high_multibyte tok) by (eapply Forall_impl; [|exact HO]; intros c (H & _); exact H).
  assert (N59 : ~ In 59%N (concat tok)) by (apply not_in_concat; eapply Forall_impl; [|exact HO]; intros c (_ & H & _); exact H).
  assert (N92 : ~ In 92%N (concat tok)) by (apply not_in_concat; eapply Forall_impl; [|exact HO]; intros c (_ & _ & H); exact H).
  pose proof (parse_plain e tok [] (conj HC (conj HH N92)) (lead_brace e tok HC NB)) as P. rewrite esc_id in P by exact N59.
  exists (Anet_Model.word_of {| p_text := concat tok; p_tag1 := None; p_tag2 := None |}).
  pose proof (new_word_value (concat tok)) as U. pose proof (unstarred_good e tok _ NE HC HH U) as GT.
  split; [eexists; split; [exact P|reflexivity]|]. split; [exact U|]. split; [exact (proj2 GT)|].
  eexists. split; [left; split; reflexivity|exact GT].
Qed.
Lemma parse_det e tok w w' : stands_for e tok w -> stands_for e tok w' -> w = w'.
Proof. intros (p & E & ->) (p' & E' & ->). rewrite E in E'. injection E' as ->. reflexivity. Qed.

Lemma parts_all (P : list N -> Prop) cs : forall d cur, Forall P cur -> Forall P cs -> Forall (Forall P) (parts d cur cs).
Proof.
  induction cs as [|c cs IH]; intros d cur H1 H2; cbn [parts]; [constructor; [exact H1|constructor]|].
  inversion_clear H2 as [|? ? Hc Hcs]. assert (K : Forall P (cur ++ [c])) by (apply Forall_app; auto).
  destruct (list_eq_dec N.eq_dec c [47%N]); [destruct (d <=? 0)%Z|]; auto.
Qed.
Lemma strip_all (P : list N -> Prop) cs : Forall P cs -> Forall P (strip cs).
Proof. induction 1 as [|c cs H1 H2 IH]; cbn [strip]; [constructor|]. destruct (is_space c); [exact IH|constructor; assumption]. Qed.
Lemma alternatives_all (P : list N -> Prop) inner a : Forall P inner -> In a (alternatives inner) -> Forall P a.
Proof.
  intros H Ha. apply filter_In in Ha. destruct Ha as [Ha _]. apply in_map_iff in Ha. destruct Ha as (p & <- & Hp).
  apply strip_all. pose proof (parts_all P inner 0%Z [] (Forall_nil _) H) as K. rewrite Forall_forall in K. exact (K p Hp).
Qed.
Lemma reads_good e cs r : reads e cs r -> Forall (is_char e) cs -> Forall ordinary cs -> Forall (good_word e) r.
Proof.
  induction 1 as [ws H|ws tok rest w r H PW ST HR IH|ws inner rest a r1 r2 H HG D0 Ha R1 IH1 R2 IH2]; intros HC HO.
  - constructor.
  - apply Forall_app in HC. destruct HC as [_ HC]. apply Forall_app in HC. destruct HC as [HC1 HC2].
    apply Forall_app in HO. destruct HO as [_ HO]. apply Forall_app in HO. destruct HO as [HO1 HO2].
    constructor; [|auto]. destruct (plain_stands e tok rest PW HC1 HO1) as (w' & S' & _ & G). rewrite (parse_det e tok w w' ST S'). exact G.
  - unfold braces in HC, HO. apply Forall_app in HC. destruct HC as [_ HC]. apply Forall_app in HC. destruct HC as [HC1 HC2].
    apply Forall_app in HO. destruct HO as [_ HO]. apply Forall_app in HO. destruct HO as [HO1 HO2].
    apply Forall_inv_tail in HC1. apply Forall_inv_tail in HO1. apply Forall_app in HC1. destruct HC1 as [HC1 _]. apply Forall_app in HO1. destruct HO1 as [HO1 _].
    apply Forall_app. split; [|auto]. apply IH1; [exact (alternatives_all _ _ _ HC1 Ha)|exact (alternatives_all _ _ _ HO1 Ha)].
Qed.
