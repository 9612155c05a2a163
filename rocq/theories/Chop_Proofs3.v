(** Lemmas for the conversations of two files. *)
From Coq Require Import String List NArith ZArith Arith Bool Lia Sorted.
From Verif Require Import Base Chan_Model Chan_Proofs Chop_Model Chop_Spec Chop_Proofs1 Chop_Proofs2.
Import ListNotations.
Local Open Scope res_scope.
Local Open Scope Z_scope.
Notation len l := (Z.of_nat (length l)).

Lemma next_conv (vs : list (str * list (str * list mword))) c : Forall conv_ok vs -> match vs with [] => True | v :: _ => c <> fst v end ->
  match all_words vs with [] => vs = [] | y :: _ => conv y <> c end.
Proof.
  intros F D. destruct vs as [|(c', chs) vs]; [reflexivity|]. apply Forall_inv in F. destruct F as (NE & F & _). cbn [fst snd] in *.
  destruct chs as [|(t, ws) chs]; [congruence|]. apply Forall_inv in F. destruct F as (NE' & F). cbn [fst snd] in *.
  destruct ws as [|y ws]; [congruence|]. cbn. apply Forall_inv in F. destruct F. congruence.
Qed.
Lemma conv_facts f p (v : str * list (str * list mword)) vs a bs : f = p ++ all_words (v :: vs) -> Forall conv_ok (v :: vs) -> Sorted (fun a b => fst a <> fst b) (v :: vs) ->
  snd v = a :: bs -> (length bs <= 1)%nat -> ~ lone_end (v :: vs) ->
  exists x, wd f (len p + 1) = Ok x /\ conv x = fst v
    /\ locate_boundary false f (len p + 1) = Ok (len p + len (flat_map snd (snd v)))
    /\ locate_boundary true f (len p + 1) = Ok (len p + len (snd a))
    /\ second f x (len p + len (snd a)) = Ok (match bs with [] => -1 | b :: _ => len p + len (snd a) + len (snd b) end).
Proof.
  intros -> F SO EV LB NL. pose proof F as F'. apply Forall_cons_iff in F'. destruct F' as ((NE & FC & SC) & FV). rewrite EV in *.
  apply Sorted_inv in SO. destruct SO as (SO & HR).
  assert (NX := next_conv vs (fst v) FV). assert (NX' : match all_words vs with [] => vs = [] | y :: _ => conv y <> fst v end) by (apply NX; inversion HR; auto). clear NX.
  apply Forall_cons_iff in FC. destruct FC as ((NA & FA) & FB). destruct a as (ta, wa). cbn [fst snd] in *. destruct wa as [|x wa]; [congruence|].
  pose proof (Forall_inv FA) as (CX & TX).
  assert (WB : flat_map snd bs = match bs with [] => [] | b :: _ => snd b end).
  { destruct bs as [|b [|b' bs]]; [reflexivity| |cbn [length] in LB; lia]. cbn. apply app_nil_r. }
  assert (ALLB : forall y : mword, In y (flat_map snd bs) -> conv y = fst v).
  { intros y I. apply in_flat_map in I. destruct I as (b & IB & IY). rewrite Forall_forall in FB. destruct (FB b IB) as (_ & G). rewrite Forall_forall in G. apply (G y IY). }
  assert (ALLA : forall y : mword, In y wa -> conv y = fst v /\ turn y = ta).
  { intros y I. apply Forall_inv_tail in FA. rewrite Forall_forall in FA. apply (FA y I). }
  exists x. unfold all_words. cbn [flat_map]. change (flat_map (fun v => flat_map snd (snd v)) vs) with (all_words vs). rewrite EV. cbn [flat_map snd].
  split; [cbn [app]; apply wd_at; reflexivity|]. split; [exact CX|]. split; [|split].
  - cbn [app]. rewrite (app_comm_cons (wa ++ flat_map snd bs)). apply boundary_at; [| |reflexivity].
    + intros y I. rewrite CX. apply in_app_or in I. destruct I as [I|I]; (split; [|discriminate]); [apply ALLA|apply ALLB]; exact I.
    + destruct (all_words vs); [exact I|]. left. congruence.
  - rewrite <- app_assoc. apply boundary_at; [| |reflexivity].
    + intros y I. rewrite CX, TX. split; [|intros _]; apply ALLA; exact I.
    + rewrite WB. destruct bs as [|(tb, wb) bs]; cbn [app snd].
      * destruct (all_words vs); [exact I|]. left. congruence.
      * apply Forall_inv in FB. destruct FB as (NB & FB). cbn [fst snd] in *. destruct wb as [|y wb]; [congruence|]. cbn [app]. right. split; [reflexivity|].
        apply Forall_inv in FB. destruct FB as (_ & ->). rewrite TX. apply Sorted_inv in SC. destruct SC as (_ & SC). inversion SC; subst. cbn [fst] in *. congruence.
  - unfold second. rewrite !app_length. cbn [length]. rewrite WB. destruct bs as [|(tb, wb) bs].
    + cbn [length app]. rewrite app_nil_r. match goal with |- context [?u <? ?z] => destruct (Z.ltb_spec u z) end; [|reflexivity].
      destruct (all_words vs) as [|y ys] eqn:EA; [cbn [length] in *; lia|].
      replace (p ++ x :: wa ++ y :: ys) with ((p ++ x :: wa) ++ y :: ys) by (rewrite <- app_assoc; reflexivity). rewrite wd_at by (rewrite app_length; cbn [length]; lia). cbn [rbind].
      destruct (str_eqb (conv x) (conv y)) eqn:E; [apply str_eqb_iff in E; congruence|reflexivity].
    + cbn [snd]. assert (bs = []) as -> by (destruct bs; [reflexivity|cbn [length] in LB; lia]).
      apply Forall_inv in FB. destruct FB as (NB & FB). cbn [fst snd] in *. destruct wb as [|y wb]; [congruence|]. pose proof (Forall_inv FB) as (CY & TY).
      assert (LN : len p + Z.of_nat (S (length wa)) + 1 < Z.of_nat (length p + (S (length wa) + length (y :: wb) + length (all_words vs)))).
      { cbn [length]. destruct wb as [|z wb]; [|cbn [length]; lia]. destruct (all_words vs) eqn:EA; [|cbn [length]; lia].
        exfalso. apply NL. subst vs. exists [], (fst v), (ta, x :: wa), tb, y. destruct v as (c, chs). cbn [fst snd] in *. rewrite EV. reflexivity. }
      apply Z.ltb_lt in LN. cbn [length] in LN |- *. rewrite LN.
      replace (p ++ ((x :: wa) ++ y :: wb) ++ all_words vs) with ((p ++ x :: wa) ++ (y :: wb) ++ all_words vs) by (rewrite <- !app_assoc; reflexivity).
      assert (LP : len p + Z.of_nat (S (length wa)) + 1 = len (p ++ x :: wa) + 1) by (rewrite app_length; cbn [length]; lia).
      rewrite LP at 1. cbn [app]. rewrite wd_at by reflexivity. cbn [rbind].
      destruct (str_eqb (conv x) (conv y)) eqn:E; [|assert (str_eqb (conv x) (conv y) = true) by (apply str_eqb_iff; congruence); congruence].
      rewrite app_comm_cons. rewrite (boundary_at true (p ++ x :: wa) y wb (all_words vs)); [rewrite app_length; cbn [length]; f_equal; lia| | |exact LP].
      * intros z I. apply Forall_inv_tail in FB. rewrite Forall_forall in FB. destruct (FB z I) as (-> & ->). rewrite CY, TY. auto.
      * destruct (all_words vs); [exact I|]. left. congruence.
Qed.

Lemma lone_tail v vs : ~ lone_end (v :: vs) -> ~ lone_end vs.
Proof. intros H (us & c & a & t & w & ->). apply H. exists (v :: us), c, a, t, w. reflexivity. Qed.
Lemma chan_words ref hyp c t pr (a : list mword) qr ph b qh ps rs hs re he :
  ref = pr ++ a ++ qr -> hyp = ph ++ b ++ qh -> rs = len pr + 1 -> re = len pr + len a -> hs = len ph + 1 -> he = len ph + len b ->
  Forall (fun w : mword => conv w = c /\ turn w = t) a -> channel ref hyp rs hs re he = Ok ps -> chunked c t a b 0 ps.
Proof.
  intros ER EH -> -> -> -> F H. unfold channel in H.
  apply (pieces_chunked ref hyp c t) in H.
  - rewrite ER, EH, !words_of_at in H by lia. exact H.
  - lia.
  - lia.
  - rewrite ER, !app_length. lia.
  - rewrite EH, !app_length. lia.
  - intros i w B W. apply wd_nth in W. destruct W as (_ & W). rewrite ER in W. rewrite nth_error_app2 in W by lia. rewrite nth_error_app1 in W by lia.
    apply nth_error_In in W. rewrite Forall_forall in F. apply F, W.
Qed.
Lemma convs_some ref hyp : forall f R H pr ph ps,
  ref = pr ++ all_words R -> hyp = ph ++ all_words H ->
  Forall conv_ok R -> Forall conv_ok H -> Sorted (fun a b => fst a <> fst b) R -> Sorted (fun a b => fst a <> fst b) H ->
  Forall (fun v => length (snd v) <= 2)%nat R -> Forall (fun v => length (snd v) <= 2)%nat H -> ~ lone_end R -> ~ lone_end H ->
  convs ref hyp f (len pr + 1) (len ph + 1) = Ok ps ->
  in_step R H /\ exists pss, ps = concat pss /\ Forall2 (fun x ps => match x with (c, t, a, b) => chunked c t a b 0 ps end) (channels R H) pss.
Proof.
  induction f as [|f IH]; intros R H pr ph ps ER EH FR FH SR SH LR LH NR NH E; [discriminate|]. cbn [convs] in E. cbv zeta in E.
  destruct (_ && _); [discriminate|]. destruct (_ && _); [discriminate|].
  destruct R as [|(c, [|a bs]) R].
  { exfalso. cbn in ER. rewrite app_nil_r in ER. subst pr.
    ib E. ib E. ib E. apply wd_nth in E2. destruct E2 as (_ & E2). assert (nth_error ref (Z.to_nat (len ref + 1 - 1)) <> None) by congruence. apply nth_error_Some in H0. lia. }
  { exfalso. apply Forall_inv in FR. destruct FR as (FR & _). apply FR. reflexivity. }
  destruct H as [|(c', [|a' bs']) H].
  { exfalso. cbn in EH. rewrite app_nil_r in EH. subst ph.
    ib E. ib E. ib E. ib E. apply wd_nth in E3. destruct E3 as (_ & E3). assert (nth_error hyp (Z.to_nat (len hyp + 1 - 1)) <> None) by congruence. apply nth_error_Some in H. lia. }
  { exfalso. apply Forall_inv in FH. destruct FH as (FH & _). apply FH. reflexivity. }
  destruct (conv_facts ref pr _ R a bs ER FR SR eq_refl) as (x & W1 & C1 & B1 & B2 & S1); [apply Forall_inv in LR; cbn [snd length] in LR; lia|exact NR|].
  destruct (conv_facts hyp ph _ H a' bs' EH FH SH eq_refl) as (y & W2 & C2 & B3 & B4 & S2); [apply Forall_inv in LH; cbn [snd length] in LH; lia|exact NH|].
  rewrite B1, B3, W1, W2 in E. cbn [rbind] in E. destruct (str_eqb (conv x) (conv y)) eqn:EC; [|discriminate]. apply str_eqb_iff in EC. cbn [fst] in C1, C2.
  assert (c = c') as <- by congruence.
  rewrite B2, B4 in E. cbn [rbind] in E. rewrite S1, S2 in E. cbn [rbind] in E.
  assert (LL : length bs = length bs').
  { apply Forall_inv in LR, LH. cbn [snd length] in LR, LH. destruct bs as [|b [|]], bs' as [|b' [|]]; cbn [length] in *; try lia; try reflexivity; exfalso.
    - rewrite Z.eqb_refl in E. destruct (Z.eqb_spec (len ph + len (snd a') + len (snd b')) (-1)); [lia|]. cbn [negb andb] in E. discriminate.
    - rewrite Z.eqb_refl in E. destruct (Z.eqb_spec (len pr + len (snd a) + len (snd b)) (-1)); [lia|]. cbn [negb andb] in E. discriminate. }
  destruct (negb _ && _); [discriminate|]. destruct (negb _ && _); [discriminate|].
  ib E. ib E. ib E. injection E as <-.
  pose proof (Forall_inv FR) as (_ & FC & _). cbn [fst snd] in FC. apply Forall_cons_iff in FC. destruct FC as ((_ & FA) & FB).
  assert (ER1 : ref = pr ++ snd a ++ (flat_map snd bs ++ all_words R)) by (rewrite ER; unfold all_words; cbn [flat_map snd]; rewrite <- !app_assoc; reflexivity).
  assert (EH1 : hyp = ph ++ snd a' ++ (flat_map snd bs' ++ all_words H)) by (rewrite EH; unfold all_words; cbn [flat_map snd]; rewrite <- !app_assoc; reflexivity).
  assert (G1 := chan_words ref hyp c (fst a) _ _ _ _ _ _ _ _ _ _ _ ER1 EH1 eq_refl eq_refl eq_refl eq_refl FA E0).
  assert (REST : in_step R H /\ exists pss, m1 = concat pss /\ Forall2 (fun x ps => match x with (c, t, a, b) => chunked c t a b 0 ps end) (channels R H) pss).
  { destruct (_ || _) eqn:EL.
    - apply (IH R H (pr ++ flat_map snd (a :: bs)) (ph ++ flat_map snd (a' :: bs'))).
      + rewrite ER. unfold all_words. cbn [flat_map snd]. rewrite <- !app_assoc. reflexivity.
      + rewrite EH. unfold all_words. cbn [flat_map snd]. rewrite <- !app_assoc. reflexivity.
      + eapply Forall_inv_tail, FR.
      + eapply Forall_inv_tail, FH.
      + eapply Sorted_inv, SR.
      + eapply Sorted_inv, SH.
      + eapply Forall_inv_tail, LR.
      + eapply Forall_inv_tail, LH.
      + eapply lone_tail, NR.
      + eapply lone_tail, NH.
      + rewrite !app_length. cbn [snd] in E2. replace (Z.of_nat (length pr + length (flat_map snd (a :: bs))) + 1) with (len pr + len (flat_map snd (a :: bs)) + 1) by lia.
        replace (Z.of_nat (length ph + length (flat_map snd (a' :: bs'))) + 1) with (len ph + len (flat_map snd (a' :: bs')) + 1) by lia. exact E2.
    - injection E2 as <-. apply orb_false_elim in EL. rewrite !Z.leb_gt in EL. rewrite ER1, EH1, !app_length in EL. cbn [snd flat_map] in EL. rewrite !app_length in EL.
      assert (all_words R = [] /\ all_words H = []) as (A1 & A2) by (split; apply length_zero_iff_nil; lia).
      assert (R = []) as ->. { pose proof (next_conv R c (Forall_inv_tail FR)) as K. rewrite A1 in K. apply K. apply Sorted_inv in SR. destruct SR as (_ & SR). inversion SR; subst; auto. }
      assert (H = []) as ->. { pose proof (next_conv H c (Forall_inv_tail FH)) as K. rewrite A2 in K. apply K. apply Sorted_inv in SH. destruct SH as (_ & SH). inversion SH; subst; auto. }
      split; [constructor|]. exists []. split; [reflexivity|constructor]. }
  destruct REST as (SS & pss & -> & F2). split.
  - constructor; [split; [reflexivity|cbn [snd length]; lia]|exact SS].
  - unfold channels. cbn [combine flat_map fst snd map app]. change (flat_map _ (combine R H)) with (channels R H).
    destruct bs as [|b [|]], bs' as [|b' [|]]; try (apply Forall_inv in LR; cbn [snd length] in LR; lia); try discriminate.
    + cbn [Z.eqb] in E1. injection E1 as <-. exists (m :: pss). split; [reflexivity|]. constructor; [exact G1|exact F2].
    + destruct (Z.eqb_spec (len pr + len (snd a) + len (snd b)) (-1)); [lia|]. apply Forall_inv in FB. destruct FB as (_ & FB).
      cbn [flat_map app] in ER1, EH1. rewrite app_nil_r in ER1, EH1.
      assert (G2 : chunked c (fst b) (snd b) (snd b') 0 m0).
      { apply (chan_words ref hyp c (fst b) (pr ++ snd a) (snd b) (all_words R) (ph ++ snd a') (snd b') (all_words H) m0 (len pr + len (snd a) + 1) (len ph + len (snd a') + 1)
          (len pr + len (snd a) + len (snd b)) (len ph + len (snd a') + len (snd b')));
          [rewrite ER1, <- app_assoc; reflexivity|rewrite EH1, <- app_assoc; reflexivity|rewrite app_length; lia|rewrite app_length; lia|rewrite app_length; lia|rewrite app_length; lia|exact FB|exact E1]. }
      exists (m :: m0 :: pss). split; [reflexivity|]. cbn [combine map fst snd app]. constructor; [exact G1|]. constructor; [exact G2|exact F2].
Qed.

Lemma chan_ends ref hyp pr (a : list mword) qr ph b qh rs hs re he : (forall w, wd ref 1 = Ok w -> alternate w = false) ->
  (forall i j w, wd ref i = Ok w -> (j <= length ref + length hyp)%nat -> (length (utt_id (conv w) (turn w) j) < 100)%nat) ->
  ref = pr ++ a ++ qr -> hyp = ph ++ b ++ qh -> rs = len pr + 1 -> re = len pr + len a -> hs = len ph + 1 -> he = len ph + len b ->
  a <> [] -> b <> [] -> (qr <> [] \/ ((length a <= 50)%nat /\ (length b <= 50)%nat)) -> exists ps, channel ref hyp rs hs re he = Ok ps.
Proof.
  intros FA ID ER EH -> -> -> -> NA NB Q. unfold channel.
  pose proof (rounds_big (len pr + 1) (len pr + len a)). pose proof (rounds_big (len ph + 1) (len ph + len b)).
  assert (LR : length ref = (length pr + (length a + length qr))%nat) by (rewrite ER, !app_length; reflexivity).
  assert (LH : length hyp = (length ph + (length b + length qh))%nat) by (rewrite EH, !app_length; reflexivity).
  assert (0 < length a)%nat by (destruct a; [congruence|cbn; lia]). assert (0 < length b)%nat by (destruct b; [congruence|cbn; lia]).
  apply pieces_ends; try assumption; try lia.
  destruct Q as [Q|Q]; [|right; lia]. left. assert (0 < length qr)%nat by (destruct qr; [congruence|cbn; lia]). lia.
Qed.
Lemma convs_ends ref hyp : (forall w, wd ref 1 = Ok w -> alternate w = false) ->
  (forall i j w, wd ref i = Ok w -> (j <= length ref + length hyp)%nat -> (length (utt_id (conv w) (turn w) j) < 100)%nat) ->
  forall f R H pr ph,
  ref = pr ++ all_words R -> hyp = ph ++ all_words H ->
  Forall conv_ok R -> Forall conv_ok H -> Sorted (fun a b => fst a <> fst b) R -> Sorted (fun a b => fst a <> fst b) H ->
  Forall (fun v => length (snd v) <= 2)%nat R -> Forall (fun v => length (snd v) <= 2)%nat H -> ~ lone_end R -> ~ lone_end H ->
  in_step R H -> short_end R H -> R <> [] -> (length R <= f)%nat ->
  exists ps, convs ref hyp f (len pr + 1) (len ph + 1) = Ok ps.
Proof.
  intros FA ID. induction f as [|f IH]; intros R H pr ph ER EH FR FH SR SH LR LH NR NH SS SE NE LF; [destruct R; [congruence|cbn in LF; lia]|].
  inversion SS as [|r h R1 H1 (EN & EL) SS']; subst R H; [congruence|]. destruct r as (c, [|a bs]), h as (c', [|a' bs']); try discriminate;
    [apply Forall_inv in FR; destruct FR as (FR & _); exfalso; apply FR; reflexivity|]. cbn [fst snd length] in EN, EL. subst c'. injection EL as EL.
  destruct (conv_facts ref pr _ R1 a bs ER FR SR eq_refl) as (x & W1 & C1 & B1 & B2 & S1); [apply Forall_inv in LR; cbn [snd length] in LR; lia|exact NR|].
  destruct (conv_facts hyp ph _ H1 a' bs' EH FH SH eq_refl) as (y & W2 & C2 & B3 & B4 & S2); [apply Forall_inv in LH; cbn [snd length] in LH; lia|exact NH|].
  assert (ER1 : ref = pr ++ snd a ++ (flat_map snd bs ++ all_words R1)) by (rewrite ER; unfold all_words; cbn [flat_map snd]; rewrite <- !app_assoc; reflexivity).
  assert (EH1 : hyp = ph ++ snd a' ++ (flat_map snd bs' ++ all_words H1)) by (rewrite EH; unfold all_words; cbn [flat_map snd]; rewrite <- !app_assoc; reflexivity).
  pose proof (Forall_inv FR) as (_ & FC & _). cbn [fst snd] in FC. apply Forall_cons_iff in FC. destruct FC as ((NA & _) & FB).
  pose proof (Forall_inv FH) as (_ & FC & _). cbn [fst snd] in FC. apply Forall_cons_iff in FC. destruct FC as ((NA' & _) & FB').
  cbn [convs]. cbv zeta. rewrite B1, B3, W1, W2. cbn [rbind]. cbn [fst] in C1, C2.
  assert (EC : str_eqb (conv x) (conv y) = true) by (apply str_eqb_iff; congruence). rewrite EC, B2, B4. cbn [rbind]. rewrite S1, S2. cbn [rbind].
  assert (LA : 0 < len (snd a)) by (destruct (snd a); [congruence|cbn; lia]). assert (LA' : 0 < len (snd a')) by (destruct (snd a'); [congruence|cbn; lia]).
  assert (LNR : len ref = len pr + (len (snd a) + (len (flat_map snd bs) + len (all_words R1)))) by (rewrite ER1, !app_length; lia).
  assert (LNH : len hyp = len ph + (len (snd a') + (len (flat_map snd bs') + len (all_words H1)))) by (rewrite EH1, !app_length; lia).
  destruct (Z.ltb_spec (len hyp) (len ph + 1)); [lia|]. cbn [andb]. destruct (Z.ltb_spec (len ref) (len pr + 1)); [lia|]. rewrite andb_false_r.
  assert (REST : exists m, (if (len ph + len (flat_map snd (snd (c, a' :: bs'))) + 1 <=? len hyp) || (len pr + len (flat_map snd (snd (c, a :: bs))) + 1 <=? len ref)
     then convs ref hyp f (len pr + len (flat_map snd (snd (c, a :: bs))) + 1) (len ph + len (flat_map snd (snd (c, a' :: bs'))) + 1) else Ok []) = Ok m).
  { cbn [snd]. destruct R1 as [|r R1].
    - inversion SS'; subst H1. cbn [flat_map]. rewrite !app_length. cbn [all_words flat_map length] in LNR, LNH.
      destruct (Z.leb_spec (len ph + Z.of_nat (length (snd a') + length (flat_map snd bs')) + 1) (len hyp)); [lia|].
      destruct (Z.leb_spec (len pr + Z.of_nat (length (snd a) + length (flat_map snd bs)) + 1) (len ref)); [lia|]. cbn [orb]. eauto.
    - destruct (_ || _); [|eauto].
      destruct (IH (r :: R1) H1 (pr ++ flat_map snd (a :: bs)) (ph ++ flat_map snd (a' :: bs'))) as (m & E).
      + rewrite ER. unfold all_words. cbn [flat_map snd]. rewrite <- !app_assoc. reflexivity.
      + rewrite EH. unfold all_words. cbn [flat_map snd]. rewrite <- !app_assoc. reflexivity.
      + eapply Forall_inv_tail, FR.
      + eapply Forall_inv_tail, FH.
      + eapply Sorted_inv, SR.
      + eapply Sorted_inv, SH.
      + eapply Forall_inv_tail, LR.
      + eapply Forall_inv_tail, LH.
      + eapply lone_tail, NR.
      + eapply lone_tail, NH.
      + exact SS'.
      + intros pre c0 t a0 b0 E. apply (SE (map (fun q => (c, fst (fst q), snd (fst q), snd (snd q))) (combine (a :: bs) (a' :: bs')) ++ pre) c0 t a0 b0).
        unfold channels in *. cbn [combine flat_map fst snd] in *. rewrite E, <- app_assoc. reflexivity.
      + discriminate.
      + cbn [length] in LF |- *. lia.
      + exists m. rewrite !app_length in E. rewrite !Nat2Z.inj_add in E. exact E. }
  destruct REST as (m & REST).
  destruct bs as [|b [|]], bs' as [|b' [|]]; try discriminate; try (apply Forall_inv in LR; cbn [snd length] in LR; lia).
  - rewrite !Z.eqb_refl. cbn [negb andb]. destruct (chan_ends ref hyp pr (snd a) (flat_map snd [] ++ all_words R1) ph (snd a') (flat_map snd [] ++ all_words H1) (len pr + 1) (len ph + 1) (len pr + len (snd a)) (len ph + len (snd a')) FA ID ER1 EH1 eq_refl eq_refl eq_refl eq_refl NA NA') as (ps & E1).
    { destruct R1 as [|r R1].
      - right. inversion SS'; subst H1. apply (SE [] c (fst a) (snd a) (snd a')). reflexivity.
      - left. cbn [flat_map app]. pose proof (next_conv (r :: R1) c (Forall_inv_tail FR)) as K. destruct (all_words (r :: R1)); [|discriminate]. exfalso.
        assert (r :: R1 = []) by (apply K; apply Sorted_inv in SR; destruct SR as (_ & SR); inversion SR; subst; assumption). discriminate. }
    rewrite E1. cbn [rbind]. cbn [snd] in REST |- *. rewrite REST. cbn [rbind]. eexists; reflexivity.
  - apply Forall_inv in FB, FB'. destruct FB as (NB & _). destruct FB' as (NB' & _).
    destruct (Z.eqb_spec (len pr + len (snd a) + len (snd b)) (-1)); [lia|]. destruct (Z.eqb_spec (len ph + len (snd a') + len (snd b')) (-1)); [lia|]. cbn [negb andb].
    destruct (chan_ends ref hyp pr (snd a) (flat_map snd [b] ++ all_words R1) ph (snd a') (flat_map snd [b'] ++ all_words H1) (len pr + 1) (len ph + 1) (len pr + len (snd a)) (len ph + len (snd a')) FA ID ER1 EH1 eq_refl eq_refl eq_refl eq_refl NA NA') as (ps & E1).
    { left. cbn [flat_map]. destruct (snd b); [congruence|discriminate]. }
    rewrite E1. cbn [rbind].
    destruct (chan_ends ref hyp (pr ++ snd a) (snd b) (all_words R1) (ph ++ snd a') (snd b') (all_words H1) (len pr + len (snd a) + 1) (len ph + len (snd a') + 1) (len pr + len (snd a) + len (snd b)) (len ph + len (snd a') + len (snd b')) FA ID) as (ps2 & E2).
    { rewrite ER1. cbn [flat_map]. rewrite app_nil_r, <- app_assoc. reflexivity. }
    { rewrite EH1. cbn [flat_map]. rewrite app_nil_r, <- app_assoc. reflexivity. }
    { rewrite app_length. lia. } { rewrite app_length. lia. } { rewrite app_length. lia. } { rewrite app_length. lia. } { exact NB. } { exact NB'. }
    { destruct R1 as [|r R1].
      - right. inversion SS'; subst H1. apply (SE [(c, fst a, snd a, snd a')] c (fst b) (snd b) (snd b')). reflexivity.
      - left. pose proof (next_conv (r :: R1) c (Forall_inv_tail FR)) as K. destruct (all_words (r :: R1)); [|discriminate]. exfalso.
        assert (r :: R1 = []) by (apply K; apply Sorted_inv in SR; destruct SR as (_ & SR); inversion SR; subst; assumption). discriminate. }
    rewrite E2. cbn [rbind]. cbn [snd] in REST |- *. rewrite REST. cbn [rbind]. eexists; reflexivity.
Qed.
