(** Texts without the character @. *)
From Coq Require Import List NArith ZArith Arith Bool Lia.
From Verif Require Import Base Net_Model Text_Model Text_Spec Word_Model Word_Spec Case_Model Anet_Model Anet_Spec Anet_Proofs5 Anet_Proofs6 Sep_Spec Sep_Thm Cnet_Spec Cnet_Proofs3 Cnet_Proofs5.
Import ListNotations.

Definition bare (l : list N) : Prop := ~ In 64%N l.
Lemma bare_concat cs : bare (concat cs) <-> Forall bare cs.
Proof.
  unfold bare. rewrite Forall_forall. split.
  - intros H c Hc K. apply H, in_concat. eauto.
  - intros H K. apply in_concat in K. destruct K as (c & H1 & H2). exact (H c H1 H2).
Qed.
Lemma reads_bare e cs r : reads e cs r -> Forall (is_char e) cs -> Forall ordinary cs -> Forall bare cs -> forall w, In w r -> bare (w_value w).
Proof.
  induction 1 as [ws H|ws tok rest w0 r H PW ST HR IH|ws inner rest a r1 r2 H HG D0 Ha R1 IH1 R2 IH2]; intros HC HO HB w Hw.
  - destruct Hw.
  - rewrite !Forall_app in HC, HO, HB. destruct HC as (_ & HC1 & HC2), HO as (_ & HO1 & HO2), HB as (_ & HB1 & HB2).
    destruct Hw as [<-|Hw]; [|apply IH; auto]. destruct (plain_stands e tok rest PW HC1 HO1) as (w' & S' & U & _). rewrite (parse_det e tok w0 w' ST S').
    apply bare_concat in HB1. destruct U as [(b & q & E & ->)|(-> & _)]; [|exact HB1]. rewrite E in HB1. intros K. apply HB1. rewrite app_comm_cons. apply in_app_iff. left. exact K.
  - unfold braces in HC, HO, HB. rewrite !Forall_app in HC, HO, HB. destruct HC as (_ & HC1 & HC2), HO as (_ & HO1 & HO2), HB as (_ & HB1 & HB2).
    apply Forall_inv_tail in HC1, HO1, HB1. rewrite Forall_app in HC1, HO1, HB1. destruct HC1 as (HC1 & _), HO1 as (HO1 & _), HB1 as (HB1 & _).
    apply in_app_iff in Hw. destruct Hw as [Hw|Hw]; [|apply IH2; auto]. apply IH1; [exact (alternatives_all _ _ _ HC1 Ha)|exact (alternatives_all _ _ _ HO1 Ha)|exact (alternatives_all _ _ _ HB1 Ha)|exact Hw].
Qed.
Lemma starless_incl t : incl (starless t) t.
Proof.
  unfold starless. destruct t as [|a [|b t]]; [apply incl_refl|apply incl_refl|]. destruct (last (a :: b :: t) 0 =? 42)%N; [|apply incl_refl].
  intros x Hx. rewrite (app_removelast_last 0%N (l := a :: b :: t)) by discriminate. apply in_app_iff. left. exact Hx.
Qed.
Lemma pieces_incl e p na t ps : pieces e p na false t ps -> Forall (fun s => incl s t) ps.
Proof.
  intros (cs & us & (-> & _) & U & ->). assert (EU : concat us = concat cs).
  { induction U as [|g u cs us _ _ U IH|c cs us _ U IH]; [reflexivity| |]; cbn [concat]; rewrite IH; [rewrite app_assoc|]; reflexivity. }
  assert (EK : kept false us = us). { unfold kept. induction us as [|u us IH]; [reflexivity|]. cbn. f_equal. clear - us. induction us as [|u us IH]; [reflexivity|]. cbn. f_equal. exact IH. }
  rewrite EK. apply Forall_forall. intros s Hs x Hx. apply in_map_iff in Hs. destruct Hs as (g & <- & Hg). rewrite <- EU, <- (runs_concat e na us).
  apply in_concat in Hx. destruct Hx as (c & Hc & Hx). apply in_concat. exists c. split; [|exact Hx]. apply in_concat. eauto.
Qed.
Lemma piece_words_in w d ps : forall i v, In v (piece_words w d i ps) -> exists j t, In t ps /\ v = piece_word w d j t.
Proof. induction ps as [|t ps IH]; intros i v H; [destruct H|]. destruct H as [<-|H]; [exists i, t; split; [left|]; reflexivity|]. destruct (IH _ _ H) as (j & t' & H1 & H2). exists j, t'. split; [right; exact H1|exact H2]. Qed.
Lemma chars_bare e p na share cs r : Forall (is_char e) cs -> Forall ordinary cs -> bare (concat cs) -> reads_chars e p na false share cs r -> forall w, In w r -> bare (w_value w).
Proof.
  intros HC HO HB (r0 & wss & HR & FA & ->) w Hw. apply bare_concat in HB. apply in_concat in Hw. destruct Hw as (ws & H1 & H2).
  assert (Q : exists v, In v r0 /\ spelled e p na false share v ws). { clear - FA H1. induction FA as [|v ws0 r0 wss H FA IH]; [destruct H1|]. destruct H1 as [<-|H1]; [exists v; split; [left; reflexivity|exact H]|]. destruct (IH H1) as (v' & A & B). exists v'. split; [right; exact A|exact B]. }
  destruct Q as (v & Hv & SP). pose proof (reads_bare e cs r0 HR HC HO HB v Hv) as BV. pose proof (reads_fresh e cs r0 HR) as FR. rewrite Forall_forall in FR. destruct (FR v Hv) as (OD & _).
  unfold spelled in SP. destruct (Nat.leb (length (w_value v)) 1); [subst ws; destruct H2 as [<-|[]]; exact BV|]. destruct SP as (ps & PP & ->).
  destruct (list_eq_dec (list_eq_dec N.eq_dec) ps [w_value v]); [destruct H2 as [<-|[]]; exact BV|]. apply piece_words_in in H2. destruct H2 as (j & t & Ht & ->).
  unfold piece_word. rewrite OD. cbn [w_value]. pose proof (pieces_incl e p na _ ps PP) as PI. rewrite Forall_forall in PI. intros K. apply BV. specialize (PI t Ht 64%N (starless_incl t _ K)). unfold text_of in PI. rewrite OD in PI. exact PI.
Qed.
