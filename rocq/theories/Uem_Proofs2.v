From Coq Require Import List ZArith NArith Arith Bool Lia Permutation Sorted.
From Verif Require Import Base Store_Model Store_Proofs Segm_Model Segm_Spec Segm_Proofs Segm_Thm Uem_Model Uem_Spec Uem_Proofs.
Import ListNotations.
Local Open Scope Z_scope.

Definition at_pl (f c : str) (g : group) : bool := str_eqb (gp_src g) f && str_eqb (gp_ch g) c.
Definition span (g : group) : Z * Z := (gp_from g, gp_to g).

(** * Scanning a group *)
Lemma scan_fold : forall l mn mx f c, 0 <= mn -> 0 <= mx -> Forall seg_ok l ->
  exists mn' mx', fold_left scan_seg l (mn, mx, f, c) =
     (mn', mx', fold_left (fun _ s => r_src s) l f, fold_left (fun _ s => r_ch s) l c) /\
    mn' <= mn /\ (forall s, In s l -> mn' <= r_start s) /\ (mn' = mn \/ exists s, In s l /\ r_start s = mn') /\
    mx <= mx' /\ (forall s, In s l -> r_end s <= mx') /\ (mx' = mx \/ exists s, In s l /\ r_end s = mx').
Proof.
  induction l as [|s l IH]; intros mn mx f c N M F; cbn [fold_left].
  - exists mn, mx. repeat split; try lia; try (intros ? []); left; reflexivity.
  - inversion F as [|? ? [[F1 F2] F3] F4]; subst. unfold scan_seg at 2.
    replace (mn =? -1) with false by (symmetry; apply Z.eqb_neq; lia).
    replace (mx =? -1) with false by (symmetry; apply Z.eqb_neq; lia). cbn [orb].
    destruct (IH (if r_start s <? mn then r_start s else mn) (if mx <? r_end s then r_end s else mx) (r_src s) (r_ch s)) as
      (mn' & mx' & E & A1 & A2 & A3 & B1 & B2 & B3); [destruct (r_start s <? mn); lia|destruct (mx <? r_end s); lia|exact F4|].
    exists mn', mx'. rewrite E. split; [reflexivity|].
    destruct (Z.ltb_spec (r_start s) mn); destruct (Z.ltb_spec mx (r_end s));
      (split; [lia|]); (split; [intros q [<-|I]; [lia|apply A2; exact I]|]);
      (split; [destruct A3 as [A3|(q & I & Q)]; [first [left; lia|right; exists s; split; [left; reflexivity|lia]]|right; exists q; split; [right; exact I|exact Q]]|]);
      (split; [lia|]); (split; [intros q [<-|I]; [lia|apply B2; exact I]|]);
      (destruct B3 as [B3|(q & I & Q)]; [first [left; lia|right; exists s; split; [left; reflexivity|lia]]|right; exists q; split; [right; exact I|exact Q]]).
Qed.

Lemma last_same : forall A (h : A -> str) l x d, l <> [] -> (forall s, In s l -> h s = x) -> fold_left (fun _ s => h s) l d = x.
Proof.
  intros A h l x. induction l as [|s l IH]; intros d N H; [contradiction|]. cbn [fold_left].
  destruct l as [|s' l']; [apply H; left; reflexivity|]. apply IH; [discriminate|]. intros; apply H; right; assumption.
Qed.

Lemma scan_group_ok : forall g, group_ok g -> Forall seg_ok (group_segs g) ->
  scan_group g = (gp_from g, gp_to g, gp_src g, gp_ch g).
Proof.
  intros g (P & (s1 & I1 & S1) & (s2 & I2 & S2) & _) F. unfold scan_group. fold (group_segs g). rewrite Forall_forall in P.
  destruct (group_segs g) as [|s l] eqn:E; [destruct I1|]. cbn [fold_left]. unfold scan_seg at 2. cbn [Z.eqb orb].
  inversion F as [|? ? [[F1 F2] F3] F4]; subst.
  destruct (scan_fold l (r_start s) (r_end s) (r_src s) (r_ch s)) as (mn & mx & Q & A1 & A2 & A3 & B1 & B2 & B3); [lia|lia|exact F4|].
  change (Z.neg 1) with (-1). cbn [Z.eqb Pos.eqb orb]. rewrite Q. clear Q.
  assert (MN : mn = gp_from g).
  { apply Z.le_antisymm.
    - rewrite <- S1. destruct I1 as [<-|I1]; [lia|apply A2; exact I1].
    - destruct A3 as [->|(q & I & <-)]; [apply (P s); left; reflexivity|apply (P q); right; exact I]. }
  assert (MX : mx = gp_to g).
  { apply Z.le_antisymm.
    - destruct B3 as [->|(q & I & <-)]; [apply (P s); left; reflexivity|apply (P q); right; exact I].
    - rewrite <- S2. destruct I2 as [<-|I2]; [lia|apply B2; exact I2]. }
  subst mn mx. f_equal; [f_equal|].
  - change (fold_left (fun _ s => r_src s) (s :: l) (r_src s) = gp_src g). apply last_same; [discriminate|]. intros q I. apply (P q I).
  - change (fold_left (fun _ s => r_ch s) (s :: l) (r_ch s) = gp_ch g). apply last_same; [discriminate|]. intros q I. apply (P q I).
Qed.

(** * The maps after the groups *)
Definition is_min (v : Z) (l : list Z) : Prop := In v l /\ Forall (fun x => v <= x) l.
Definition is_max (v : Z) (l : list Z) : Prop := In v l /\ Forall (fun x => x <= v) l.

Definition opt_times (gs : list group) (f c : str) : option (list group) :=
  match filter (at_pl f c) gs with [] => None | l => Some l end.
Definition sm (P : Z -> list Z -> Prop) (o : option Z) (l : list Z) : Prop :=
  match o with None => l = [] | Some v => P v l end.

Record maps_ok (gs : list group) (a : isg) : Prop := {
  mo_k1 : keys_ok (i_times a);
  mo_times : forall f c, pfind (i_times a) f c = option_map (fun l => flat_map ends (map span l)) (opt_times gs f c);
  mo_borders : forall f c, pget [] (i_borders a) f c = map gp_from (filter (at_pl f c) gs);
  mo_min : forall f c, sm is_min (pfind (i_min a) f c) (map gp_from (filter (at_pl f c) gs));
  mo_max : forall f c, sm is_max (pfind (i_max a) f c) (map gp_to (filter (at_pl f c) gs)) }.

Lemma maps_step : forall gs a g, maps_ok gs a -> scan_group g = (gp_from g, gp_to g, gp_src g, gp_ch g) -> maps_ok (gs ++ [g]) (add_group a g).
Proof.
  intros gs a g [K T B MN MX] SG. unfold add_group. rewrite SG.
  assert (FA : forall f c, filter (at_pl f c) (gs ++ [g]) = filter (at_pl f c) gs ++ if at_pl f c g then [g] else []).
  { intros f c. rewrite filter_app. cbn [filter]. reflexivity. }
  constructor; cbn [i_times i_borders i_min i_max].
  - unfold ppush. apply keys_pput. exact K.
  - intros f c. unfold ppush. rewrite pfind_pput. unfold opt_times. rewrite FA.
    change (str_eqb (gp_src g) f && str_eqb (gp_ch g) c) with (at_pl f c g).
    destruct (at_pl f c g) eqn:E.
    + unfold at_pl in E. apply andb_prop in E as [E1 E2]. apply str_eqb_spec in E1. apply str_eqb_spec in E2. rewrite E1, E2.
      unfold pget. rewrite T. unfold opt_times. destruct (filter (at_pl f c) gs) as [|x l]; [reflexivity|].
      cbn [option_map app]. f_equal. rewrite app_comm_cons, map_app, flat_map_app. reflexivity.
    + rewrite T, app_nil_r. reflexivity.
  - intros f c. unfold pget, ppush. rewrite pfind_pput. rewrite FA.
    change (str_eqb (gp_src g) f && str_eqb (gp_ch g) c) with (at_pl f c g).
    destruct (at_pl f c g) eqn:E.
    + unfold at_pl in E. apply andb_prop in E as [E1 E2]. apply str_eqb_spec in E1. apply str_eqb_spec in E2. rewrite E1, E2.
      rewrite B, map_app. reflexivity.
    + rewrite app_nil_r. apply B.
  - intros f c. rewrite FA, map_app. specialize (MN f c).
    destruct (at_pl f c g) eqn:E.
    + unfold at_pl in E. apply andb_prop in E as [E1 E2]. apply str_eqb_spec in E1. apply str_eqb_spec in E2. rewrite E1, E2.
      destruct (pfind (i_min a) f c) as [v|] eqn:P; cbn [sm map] in MN |- *.
      * destruct MN as [M1 M2]. destruct (Z.ltb_spec (gp_from g) v).
        -- rewrite pfind_pput, !str_eqb_refl. cbn [andb]. split; [apply in_app_iff; right; left; reflexivity|].
           apply Forall_app. split; [|repeat constructor; lia]. eapply Forall_impl; [|exact M2]. cbn beta. intros; lia.
        -- rewrite P. split; [apply in_app_iff; left; exact M1|]. apply Forall_app. split; [exact M2|repeat constructor; lia].
      * rewrite pfind_pput, !str_eqb_refl. cbn [andb]. rewrite MN. split; [left; reflexivity|repeat constructor; lia].
    + rewrite app_nil_r.
      destruct (pfind (i_min a) (gp_src g) (gp_ch g)) as [v|]; [destruct (gp_from g <? v); [|exact MN]|];
        rewrite pfind_pput; change (str_eqb (gp_src g) f && str_eqb (gp_ch g) c) with (at_pl f c g); rewrite E; exact MN.
  - intros f c. rewrite FA, map_app. specialize (MX f c).
    destruct (at_pl f c g) eqn:E.
    + unfold at_pl in E. apply andb_prop in E as [E1 E2]. apply str_eqb_spec in E1. apply str_eqb_spec in E2. rewrite E1, E2.
      destruct (pfind (i_max a) f c) as [v|] eqn:P; cbn [sm map] in MX |- *.
      * destruct MX as [M1 M2]. destruct (Z.ltb_spec v (gp_to g)).
        -- rewrite pfind_pput, !str_eqb_refl. cbn [andb]. split; [apply in_app_iff; right; left; reflexivity|].
           apply Forall_app. split; [|repeat constructor; lia]. eapply Forall_impl; [|exact M2]. cbn beta. intros; lia.
        -- rewrite P. split; [apply in_app_iff; left; exact M1|]. apply Forall_app. split; [exact M2|repeat constructor; lia].
      * rewrite pfind_pput, !str_eqb_refl. cbn [andb]. rewrite MX. split; [left; reflexivity|repeat constructor; lia].
    + rewrite app_nil_r.
      destruct (pfind (i_max a) (gp_src g) (gp_ch g)) as [v|]; [destruct (v <? gp_to g); [|exact MX]|];
        rewrite pfind_pput; change (str_eqb (gp_src g) f && str_eqb (gp_ch g) c) with (at_pl f c g); rewrite E; exact MX.
Qed.

Lemma maps_all : forall gs, Forall (fun g => scan_group g = (gp_from g, gp_to g, gp_src g, gp_ch g)) gs ->
  maps_ok gs (fold_left add_group gs no_isg).
Proof.
  intro gs. induction gs as [|g gs IH] using rev_ind; intro F.
  - constructor; cbn; try reflexivity. split; constructor.
  - apply Forall_app in F as [F1 F2]. inversion F2; subst. rewrite fold_left_app. cbn [fold_left]. apply maps_step; [apply IH; exact F1|assumption].
Qed.

(** * Adding the map *)
Definition uspan (u : uem) : Z * Z := (u_from u, u_to u).
Lemma add_uem_all : forall m t, keys_ok t ->
  keys_ok (fold_left add_uem m t) /\
  forall f c, pfind (fold_left add_uem m t) f c = option_map (fun l => l ++ flat_map ends (map uspan (map_at m f c))) (pfind t f c).
Proof.
  intro m. induction m as [|u m IH] using rev_ind; intros t K.
  - split; [exact K|]. intros f c. cbn. destruct (pfind t f c); cbn; [rewrite app_nil_r|]; reflexivity.
  - destruct (IH t K) as [K' P]. rewrite fold_left_app. cbn [fold_left]. set (t' := fold_left add_uem m t) in *. clearbody t'.
    unfold add_uem. destruct (pfind t' (u_file u) (u_ch u)) as [l|] eqn:E.
    + split; [unfold ppush; apply keys_pput; exact K'|]. intros f c. unfold ppush. rewrite pfind_pput.
      unfold map_at. rewrite filter_app. cbn [filter].
      destruct (str_eqb (u_file u) f && str_eqb (u_ch u) c) eqn:Q.
      * apply andb_prop in Q as [Q1 Q2]. apply str_eqb_spec in Q1. apply str_eqb_spec in Q2. subst f c.
        unfold pget. rewrite E. rewrite P in E. destruct (pfind t (u_file u) (u_ch u)) as [l0|]; [|discriminate].
        cbn [option_map] in *. injection E as <-. f_equal. rewrite map_app, flat_map_app, app_assoc. reflexivity.
      * rewrite app_nil_r. apply P.
    + split; [exact K'|]. intros f c. rewrite P. destruct (pfind t f c) as [l|] eqn:T; [|reflexivity]. cbn [option_map]. do 2 f_equal.
      unfold map_at. rewrite filter_app. cbn [filter].
      destruct (str_eqb (u_file u) f && str_eqb (u_ch u) c) eqn:Q; [|rewrite app_nil_r; reflexivity].
      apply andb_prop in Q as [Q1 Q2]. apply str_eqb_spec in Q1. apply str_eqb_spec in Q2. subst f c.
      rewrite P, T in E. discriminate.
Qed.

(** * Adding the times of the hypotheses *)
Definition same_dom (mm mm' : pmap Z * pmap Z) : Prop := forall f c,
  (pfind (fst mm) f c = None <-> pfind (fst mm') f c = None) /\ (pfind (snd mm) f c = None <-> pfind (snd mm') f c = None).

Definition tok_starts (hs : list hseg) : list Z := flat_map (fun h : hseg => map fst (snd h)) hs.
Definition tok_ends (hs : list hseg) : list Z := flat_map (fun h : hseg => map snd (snd h)) hs.

Definition ext (P : Z -> list Z -> Prop) (o o' : option Z) (l : list Z) : Prop :=
  match o, o' with None, None => True | Some v, Some v' => P v' (v :: l) | _, _ => False end.

Lemma is_min_cons : forall v v' x l, is_min v' (v :: l) -> is_min (if x <? v' then x else v') (v :: l ++ [x]).
Proof.
  intros v v' x l [I F]. destruct (Z.ltb_spec x v').
  - split; [right; apply in_app_iff; right; left; reflexivity|].
    change (v :: l ++ [x]) with ((v :: l) ++ [x]). apply Forall_app. split; [|repeat constructor; lia]. eapply Forall_impl; [|exact F]. cbn beta; intros; lia.
  - split; [destruct I as [I|I]; [left; exact I|right; apply in_app_iff; left; exact I]|].
    change (v :: l ++ [x]) with ((v :: l) ++ [x]). apply Forall_app. split; [exact F|repeat constructor; lia].
Qed.
Lemma is_max_cons : forall v v' x l, is_max v' (v :: l) -> is_max (if v' <? x then x else v') (v :: l ++ [x]).
Proof.
  intros v v' x l [I F]. destruct (Z.ltb_spec v' x).
  - split; [right; apply in_app_iff; right; left; reflexivity|].
    change (v :: l ++ [x]) with ((v :: l) ++ [x]). apply Forall_app. split; [|repeat constructor; lia]. eapply Forall_impl; [|exact F]. cbn beta; intros; lia.
  - split; [destruct I as [I|I]; [left; exact I|right; apply in_app_iff; left; exact I]|].
    change (v :: l ++ [x]) with ((v :: l) ++ [x]). apply Forall_app. split; [exact F|repeat constructor; lia].
Qed.

Lemma widen_all : forall f c toks mm,
  forall f' c',
   ext is_min (pfind (fst mm) f' c') (pfind (fst (fold_left (fun mm tok => widen mm f c tok) toks mm)) f' c')
       (if str_eqb f f' && str_eqb c c' then map fst toks else []) /\
   ext is_max (pfind (snd mm) f' c') (pfind (snd (fold_left (fun mm tok => widen mm f c tok) toks mm)) f' c')
       (if str_eqb f f' && str_eqb c c' then map snd toks else []).
Proof.
  intros f c toks. induction toks as [|tok toks IH] using rev_ind; intros mm f' c'.
  - cbn [fold_left map]. replace (if str_eqb f f' && str_eqb c c' then [] else []) with (@nil Z) by (destruct (str_eqb f f' && str_eqb c c'); reflexivity).
    split; unfold ext; [destruct (pfind (fst mm) f' c')|destruct (pfind (snd mm) f' c')]; try exact I; split; try (left; reflexivity); repeat constructor; lia.
  - rewrite fold_left_app. cbn [fold_left]. destruct (IH mm f' c') as [A B].
    set (mm' := fold_left (fun mm tok => widen mm f c tok) toks mm) in *. clearbody mm'. clear IH. unfold widen. cbn [fst snd].
    rewrite !map_app. cbn [map].
    destruct (str_eqb f f' && str_eqb c c') eqn:Q.
    + pose proof Q as Q'. apply andb_prop in Q as [Q1 Q2]. apply str_eqb_spec in Q1. apply str_eqb_spec in Q2. subst f' c'. split.
      * destruct (pfind (fst mm) f c) as [v|], (pfind (fst mm') f c) as [v'|] eqn:E; cbn [ext] in A; try contradiction.
        -- apply (is_min_cons _ _ (fst tok)) in A. destruct (fst tok <? v'); [rewrite pfind_pput, Q'|rewrite E]; exact A.
        -- rewrite E. exact A.
      * destruct (pfind (snd mm) f c) as [v|], (pfind (snd mm') f c) as [v'|] eqn:E; cbn [ext] in B; try contradiction.
        -- apply (is_max_cons _ _ (snd tok)) in B. destruct (v' <? snd tok); [rewrite pfind_pput, Q'|rewrite E]; exact B.
        -- rewrite E. exact B.
    + split.
      * destruct (pfind (fst mm') f c) as [v|]; [destruct (fst tok <? v); [rewrite pfind_pput, Q|]|]; exact A.
      * destruct (pfind (snd mm') f c) as [v|]; [destruct (v <? snd tok); [rewrite pfind_pput, Q|]|]; exact B.
Qed.

Lemma ext_trans_min : forall o o' o'' l l', ext is_min o o' l -> ext is_min o' o'' l' -> ext is_min o o'' (l ++ l').
Proof.
  intros o o' o'' l l' A B. destruct o as [v|], o' as [v'|], o'' as [v''|]; cbn [ext] in *; try contradiction; [|exact I].
  destruct A as [A1 A2], B as [B1 B2]. inversion B2 as [|? ? B3 B4]; subst. split.
  - destruct B1 as [<-|B1]; [destruct A1 as [A1|A1]; [left; exact A1|right; apply in_app_iff; left; exact A1]|right; apply in_app_iff; right; exact B1].
  - change (v :: l ++ l') with ((v :: l) ++ l'). apply Forall_app. split; [|exact B4]. eapply Forall_impl; [|exact A2]. cbn beta; intros; lia.
Qed.
Lemma ext_trans_max : forall o o' o'' l l', ext is_max o o' l -> ext is_max o' o'' l' -> ext is_max o o'' (l ++ l').
Proof.
  intros o o' o'' l l' A B. destruct o as [v|], o' as [v'|], o'' as [v''|]; cbn [ext] in *; try contradiction; [|exact I].
  destruct A as [A1 A2], B as [B1 B2]. inversion B2 as [|? ? B3 B4]; subst. split.
  - destruct B1 as [<-|B1]; [destruct A1 as [A1|A1]; [left; exact A1|right; apply in_app_iff; left; exact A1]|right; apply in_app_iff; right; exact B1].
  - change (v :: l ++ l') with ((v :: l) ++ l'). apply Forall_app. split; [|exact B4]. eapply Forall_impl; [|exact A2]. cbn beta; intros; lia.
Qed.

Lemma add_hyp_times_ok : forall hs mm,
  (forall h, In h hs -> pfind (fst mm) (r_src (fst h)) (r_ch (fst h)) <> None /\ pfind (snd mm) (r_src (fst h)) (r_ch (fst h)) <> None) ->
  exists mm', add_hyp_times mm hs = Ok mm' /\ forall f c,
    ext is_min (pfind (fst mm) f c) (pfind (fst mm') f c) (tok_starts (hyps_at hs f c)) /\
    ext is_max (pfind (snd mm) f c) (pfind (snd mm') f c) (tok_ends (hyps_at hs f c)).
Proof.
  induction hs as [|[s toks] hs IH]; intros mm H; cbn [add_hyp_times].
  - exists mm. split; [reflexivity|]. intros f c. cbn. split; unfold ext; [destruct (pfind (fst mm) f c)|destruct (pfind (snd mm) f c)]; try exact I; split; try (left; reflexivity); repeat constructor; lia.
  - pose proof (widen_all (r_src s) (r_ch s) toks mm) as W. set (mm1 := fold_left (fun mm tok => widen mm (r_src s) (r_ch s) tok) toks mm) in *.
    destruct (IH mm1) as (mm' & E & S).
    { intros h I. destruct (H h (or_intror I)) as [H1 H2]. destruct (W (r_src (fst h)) (r_ch (fst h))) as [W1 W2].
      destruct (pfind (fst mm) (r_src (fst h)) (r_ch (fst h))); [|contradiction].
      destruct (pfind (snd mm) (r_src (fst h)) (r_ch (fst h))); [|contradiction].
      destruct (pfind (fst mm1) (r_src (fst h)) (r_ch (fst h))); [|contradiction].
      destruct (pfind (snd mm1) (r_src (fst h)) (r_ch (fst h))); [|contradiction]. split; discriminate. }
    exists mm'. split.
    + destruct (H (s, toks) (or_introl eq_refl)) as [H1 H2]. cbn [fst] in H1, H2.
      destruct (pfind (fst mm) (r_src s) (r_ch s)); [|contradiction]. destruct (pfind (snd mm) (r_src s) (r_ch s)); [|contradiction]. exact E.
    + intros f c. destruct (W f c) as [W1 W2]. destruct (S f c) as [S1 S2]. cbn [hyps_at filter fst snd]. fold (hyps_at hs f c).
      destruct (str_eqb (r_src s) f && str_eqb (r_ch s) c).
      * unfold tok_starts, tok_ends. cbn [flat_map snd]. split; [eapply ext_trans_min; eassumption|eapply ext_trans_max; eassumption].
      * split; [apply (ext_trans_min _ _ _ [] _ W1 S1)|apply (ext_trans_max _ _ _ [] _ W2 S2)].
Qed.

Lemma add_hyp_exit : forall hs mm h, In h hs -> pfind (fst mm) (r_src (fst h)) (r_ch (fst h)) = None -> add_hyp_times mm hs = Exit.
Proof.
  induction hs as [|[s toks] hs IH]; intros mm h I N; [destruct I|]. cbn [add_hyp_times].
  destruct (pfind (fst mm) (r_src s) (r_ch s)) eqn:E1; [|reflexivity]. destruct (pfind (snd mm) (r_src s) (r_ch s)) eqn:E2; [|reflexivity].
  destruct I as [<-|I]; [cbn [fst] in N; congruence|]. apply (IH _ h I).
  pose proof (widen_all (r_src s) (r_ch s) toks mm (r_src (fst h)) (r_ch (fst h))) as [W _]. rewrite N in W. cbn [ext] in W.
  destruct (pfind (fst (fold_left _ toks mm)) _ _); [contradiction|reflexivity].
Qed.

Lemma borders_all : forall mm hs t, keys_ok t ->
  (forall h, In h hs -> pfind t (r_src (fst h)) (r_ch (fst h)) <> None) ->
  keys_ok (fold_left (add_hyp_borders mm) hs t) /\
  forall f c, match pfind t f c, pfind (fold_left (add_hyp_borders mm) hs t) f c with
              | None, None => True
              | Some l, Some l' => Permutation l' (l ++ flat_map (fun _ => [pget 0 (fst mm) f c; pget 0 (snd mm) f c]) (hyps_at hs f c))
              | _, _ => False
              end.
Proof.
  intros mm hs. induction hs as [|h hs IH] using rev_ind; intros t K H.
  - split; [exact K|]. intros f c. cbn. destruct (pfind t f c); [rewrite app_nil_r; reflexivity|exact I].
  - destruct (IH t K) as [K' P]; [intros; apply H; apply in_app_iff; left; assumption|].
    rewrite fold_left_app. cbn [fold_left].
    match goal with |- context [add_hyp_borders mm ?x h] => set (t' := x); change (fold_left (add_hyp_borders mm) hs t) with t' in K', P end.
    clearbody t'.
    unfold add_hyp_borders. split; [apply keys_pput; exact K'|]. intros f c. rewrite pfind_pput.
    unfold hyps_at. rewrite filter_app. cbn [filter].
    destruct (str_eqb (r_src (fst h)) f && str_eqb (r_ch (fst h)) c) eqn:Q.
    + apply andb_prop in Q as [Q1 Q2]. apply str_eqb_spec in Q1. apply str_eqb_spec in Q2. subst f c.
      specialize (P (r_src (fst h)) (r_ch (fst h))).
      assert (N : pfind t (r_src (fst h)) (r_ch (fst h)) <> None) by (apply H; apply in_app_iff; right; left; reflexivity).
      unfold pget at 2. destruct (pfind t (r_src (fst h)) (r_ch (fst h))) as [l|]; [|contradiction].
      destruct (pfind t' (r_src (fst h)) (r_ch (fst h))) as [l'|]; [|contradiction].
      rewrite flat_map_app. cbn [flat_map]. rewrite app_nil_r, app_assoc. fold (hyps_at hs (r_src (fst h)) (r_ch (fst h))).
      rewrite P. apply Permutation_middle.
    + rewrite app_nil_r. exact (P f c).
Qed.
