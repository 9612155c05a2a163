(** Proofs about the lines of a row. *)
From Coq Require Import List Arith ZArith NArith Bool Lia.
From Verif Require Import Base Rpg_Model Rpg_Spec Rpg_Proofs1 Rpg_Proofs2.
Import ListNotations.
Local Open Scope res_scope.
Local Open Scope nat_scope.

Lemma f2_length : forall A B (P : A -> B -> Prop) u v, Forall2 P u v -> length u = length v.
Proof. intros A B P u v H. induction H; [reflexivity|]. cbn [length]. lia. Qed.
(** ** Cells *)
Definition shown (j : N) : Prop := In j [99; 67; 108; 76; 114; 82]%N.
Lemma ok_shown : forall j, In j [99; 67; 108; 76; 114; 82; 97]%N -> is_a j = false -> shown j.
Proof. intros j H E. unfold shown. repeat (destruct H as [<-|H]; [try (cbn; tauto); discriminate|]). destruct H. Qed.
Lemma cell_ok : forall j tw cw l s rest, shown j -> fits (isupper j) tw l -> cell j tw cw l = Ok (s, rest) ->
  exists p, next tw l p rest /\ s = placed j tw cw p.
Proof.
  intros j tw cw l s rest Hj F H. destruct (next_value tw l) as [[p r]| | |] eqn:E.
  - pose proof (next_value_next _ _ _ _ _ F E) as Hn. exists p.
    assert (G : r = rest /\ s = placed j tw cw p).
    { unfold placed, bl. cbv zeta. repeat (destruct Hj as [<-|Hj]; [unfold cell, centered, blanks in H; cbv iota in H; rewrite E in H; cbn [rbind] in H|]);
      try destruct Hj; try destruct (2000 <=? tw); try discriminate; cbn [rbind] in H; destruct (_ || _); try discriminate;
      cbn [rbind] in H; injection H as <- <-; (split; [reflexivity|]); cbn [existsb N.eqb Pos.eqb orb].
      all: try (rewrite Nat.sub_0_r; cbn [repeat app]).
      all: rewrite ?Nat.sub_diag; cbn [repeat app].
      all: rewrite <- ?app_assoc; cbn [app].
      all: rewrite ?Nat.sub_add_distr; reflexivity. }
    destruct G as [-> G]. split; assumption.
  - exfalso. repeat (destruct Hj as [<-|Hj]; [unfold cell in H; cbv iota in H; rewrite E in H; discriminate|]). destruct Hj.
  - exfalso. repeat (destruct Hj as [<-|Hj]; [unfold cell in H; cbv iota in H; rewrite E in H; discriminate|]). destruct Hj.
  - exfalso. repeat (destruct Hj as [<-|Hj]; [unfold cell in H; cbv iota in H; rewrite E in H; discriminate|]). destruct Hj.
Qed.
Lemma next_value_some : forall w l, length l < 300 -> exists p rest, next_value w l = Ok (p, rest).
Proof.
  intros w l H. unfold next_value. rewrite stop_cut. pose proof (cut_le l) as C. set (k := Nat.min w (cut l)). assert (K : k <= length l) by (unfold k; lia). clearbody k.
  assert (E1 : (300 <? k) = false) by (apply Nat.ltb_ge; lia). rewrite E1. destruct (slashes (skipn k l)).
  - assert (E2 : (300 <=? k) = false) by (apply Nat.leb_gt; lia). rewrite E2. eauto.
  - destruct (skipn k l).
    + assert (E2 : (300 <=? k) = false) by (apply Nat.leb_gt; lia). rewrite E2. eauto.
    + pose proof (back_le l k). assert (E2 : (300 <=? back l k) = false) by (apply Nat.leb_gt; lia). rewrite E2. eauto.
Qed.
Lemma cell_some : forall j tw cw l, length l < 300 -> tw < 2000 -> cw - tw <= 600 -> exists s rest, cell j tw cw l = Ok (s, rest).
Proof.
  intros j tw cw l L T C. destruct (next_value_some tw l L) as [p [rest E]].
  assert (E1 : (300 <? (cw - tw) / 2) || (300 <? cw - tw - (cw - tw) / 2) = false).
  { apply orb_false_iff. assert (2 * ((cw - tw) / 2) <= cw - tw) by (apply Nat.mul_div_le; lia).
    assert (cw - tw < 2 * ((cw - tw) / 2) + 2). { pose proof (Nat.div_mod (cw - tw) 2 ltac:(lia)). pose proof (Nat.mod_upper_bound (cw - tw) 2 ltac:(lia)). lia. }
    split; apply Nat.ltb_ge; lia. }
  assert (E2 : (2000 <=? tw) = false) by (apply Nat.leb_gt; lia).
  assert (G : exists s rest, (let* (s, rest) := next_value tw l in
      let* t := centered s tw in
      let* o := (if (300 <? (cw - tw) / 2) || (300 <? cw - tw - (cw - tw) / 2) then Undef else Ok (blanks ((cw - tw) / 2) ++ t ++ blanks (cw - tw - (cw - tw) / 2))) in Ok (o, rest)) = Ok (s, rest)).
  { rewrite E. cbn [rbind]. unfold centered. rewrite E2. cbn [rbind]. rewrite E1. cbn [rbind]. eauto. }
  unfold cell. cbv zeta. rewrite E, E1. cbn [rbind]. unfold centered. rewrite E2. cbn [rbind].
  repeat match goal with |- context [match ?x with _ => _ end] => destruct x; cbn [rbind]; eauto end.
Qed.
Lemma div2_le : forall a, a / 2 <= a. Proof. intros a. apply Nat.div_le_upper_bound; lia. Qed.
Lemma placed_length : forall j tw cw p, length p <= tw -> tw <= cw -> length (placed j tw cw p) = cw.
Proof.
  intros j tw cw p H1 H2. unfold placed, bl. cbv zeta.
  set (front := if existsb (N.eqb j) [108; 76]%N then 0 else if existsb (N.eqb j) [114; 82]%N then tw - length p else (tw - length p) / 2).
  assert (F : front <= tw - length p). { unfold front. pose proof (div2_le (tw - length p)). destruct (existsb _ _); [lia|]. destruct (existsb _ _); lia. }
  clearbody front. pose proof (div2_le (cw - tw)). rewrite !app_length, !repeat_length. lia.
Qed.
Lemma between_length : forall cs W ts ms, length W = length cs -> Forall2 (fun tc t => length t = snd tc) W ts -> Forall2 (fun c m => length m = length (bar_of (snd c))) cs ms ->
  length (between ts ms) = lens cs W.
Proof.
  induction cs as [|c cs IH]; intros W ts ms L T M.
  - destruct W; [|discriminate]. inversion T; subst. inversion M; subst. reflexivity.
  - destruct W as [|tc W]; [discriminate|]. inversion T as [|a1 t b1 ts' T1 T2]; subst. inversion M as [|a2 m b2 ms' M1 M2]; subst.
    cbn [length] in L. specialize (IH W ts' ms' ltac:(lia) T2 M2). cbn [lens]. destruct cs as [|c2 cs].
    + destruct W; [|discriminate]. inversion T2; subst. cbn [between]. lia.
    + destruct W as [|tc2 W]; [discriminate|]. inversion T2 as [|x1 y1 z1 q1 W1 W2]; subst. cbn [between]. rewrite !app_length.
      cbn [between] in IH. lia.
Qed.

(** ** A line of texts *)
(** in every cell the text fits *)
Fixpoint fitc (cols : list (N * N)) (szs : list (nat * nat)) (ls : list (list N)) : Prop :=
  match cols, szs, ls with
  | [], [], [] => True
  | (j, _) :: cols, (tw, _) :: szs, l :: ls => (is_a j = false -> fits (isupper j) tw l) /\ fitc cols szs ls
  | _, _, _ => False
  end.
Fixpoint steps (W : list (nat * nat)) (ls ps rs : list (list N)) : Prop :=
  match W, ls, ps, rs with
  | [], [], [], [] => True
  | (tw, _) :: W, l :: ls, p :: ps, r :: rs => next tw l p r /\ steps W ls ps rs
  | _, _, _, _ => False
  end.
Lemma sep_at_end : forall cols j i, sep_at (j, i) cols = end_sep i cols.
Proof.
  induction cols as [|[j' i'] cols IH]; intros j i; [reflexivity|]. unfold sep_at in *. cbn [run end_sep]. unfold is_a. destruct (j' =? 97)%N; [|reflexivity].
  specialize (IH j' i'). cbn [nth] in *. exact IH.
Qed.
Definition texts (cols : list (N * N)) (W : list (nat * nat)) (ps : list (list N)) : list (list N) :=
  map3 (fun c tc p => placed (fst c) (fst tc) (snd tc) p) (cells cols) W ps.
Definition marks (cols : list (N * N)) : list (list N) := map (fun c => bar_of (snd c)) (cells cols).
Lemma steps_length : forall W ls ps rs, steps W ls ps rs -> length ps = length W /\ length ls = length W /\ length rs = length W.
Proof.
  induction W as [|[tw cw] W IH]; intros [|l ls] [|p ps] [|r rs] H; try destruct H; [cbn; auto|].
  destruct (IH _ _ _ H0) as [A [B C]]. cbn [length]. lia.
Qed.
Lemma vis_length : forall A cols (xs : list A), length xs = length cols -> length (vis cols xs) = length (cells cols).
Proof.
  induction cols as [|[j i] cols IH]; intros xs L; [reflexivity|]. destruct xs as [|x xs]; [discriminate|]. cbn [vis cells]. unfold is_a.
  cbn [length] in L. destruct (j =? 97)%N; cbn [app length]; rewrite IH by lia; reflexivity.
Qed.
Lemma fitc_length : forall cols szs ls, fitc cols szs ls -> length szs = length cols /\ length ls = length cols.
Proof.
  induction cols as [|[j i] cols IH]; intros [|[tw cw] szs] [|l ls] H; try destruct H; [cbn; auto|].
  destruct (IH _ _ H0). cbn [length]. lia.
Qed.
Lemma between_cons : forall t ts m ms, length ts = length ms -> between (t :: ts) (m :: ms) = t ++ (match ts with [] => [] | _ => m end) ++ between ts ms.
Proof. intros t ts m ms L. destruct ts; destruct ms; try discriminate; [cbn [between]; rewrite app_nil_r; reflexivity|reflexivity]. Qed.
Lemma map3_length : forall A B D E (f : A -> B -> D -> E) u v w, length v = length u -> length w = length u -> length (map3 f u v w) = length u.
Proof. induction u as [|a u IH]; intros [|b v] [|d w] L1 L2; try discriminate; [reflexivity|]. cbn [map3 length] in *. rewrite IH; lia. Qed.
Lemma text_cells_ok : forall cols szs ls s rs, Forall ok_col cols -> fitc cols szs ls -> text_cells cols szs ls = Ok (s, rs) ->
  exists ps, steps (vis cols szs) (vis cols ls) ps (vis cols rs) /\ fitc cols szs rs
    /\ s = between (texts cols (vis cols szs) ps) (marks cols)
    /\ (forall x, In x rs -> x <> [] -> In x (vis cols rs)).
Proof.
  unfold texts, marks. induction cols as [|[j i] cols IH]; intros szs ls s rs O F H.
  - destruct szs; [|destruct F]. destruct ls; [|destruct F]. injection H as <- <-. exists []. repeat split. intros x [].
  - destruct szs as [|[tw cw] szs]; [destruct F|]. destruct ls as [|l ls]; [destruct F|]. destruct F as [F1 F2].
    pose proof (Forall_inv O) as [Hj _]. cbn [fst] in Hj. cbn [text_cells] in H. cbn [vis cells fitc]. destruct (is_a j) eqn:E.
    + destruct (text_cells cols szs ls) as [[t rs']| | |] eqn:Et; try discriminate. cbn [rbind] in H. injection H as <- <-.
      destruct (IH _ _ _ _ (Forall_inv_tail O) F2 Et) as [ps [A [B [C D]]]].
      unfold is_a in E. rewrite E. cbn [app vis]. exists ps. split; [exact A|]. split; [split; [discriminate|exact B]|]. split; [exact C|].
      intros x [<-|Hx] Hn; [congruence|]. apply D; assumption.
    + specialize (F1 eq_refl). destruct (cell j tw cw l) as [[s1 rest]| | |] eqn:Ec; try discriminate. cbn [rbind] in H.
      destruct (text_cells cols szs ls) as [[t rs']| | |] eqn:Et; try discriminate. cbn [rbind] in H. injection H as <- <-.
      destruct (IH _ _ _ _ (Forall_inv_tail O) F2 Et) as [ps [A [B [C D]]]].
      destruct (cell_ok _ _ _ _ _ _ (ok_shown j Hj E) F1 Ec) as [p [Hn Hs]].
      assert (E' : (j =? 97)%N = false) by exact E. rewrite E'. cbn [app]. exists (p :: ps). split; [split; assumption|]. split.
      * split; [|exact B]. intros _. eapply next_fits; eassumption.
      * split; [|intros x [<-|Hx] Hne; [left; reflexivity|right; apply D; assumption]].
        cbn [map3 map fst snd]. destruct (steps_length _ _ _ _ A) as [L1 _]. destruct (fitc_length _ _ _ F2) as [L2 _].
        pose proof (vis_length _ cols szs L2) as L3.
        rewrite between_cons by (rewrite map3_length, map_length; lia). rewrite <- C, Hs. f_equal.
        unfold text_sep. rewrite sep_at_end. destruct (is_last cols) eqn:El.
        -- apply cells_last in El. rewrite El. reflexivity.
        -- destruct (cells cols) as [|x cs] eqn:Ecs; [apply cells_last in Ecs; congruence|].
           destruct (vis cols szs) as [|y W]; [discriminate|]. destruct ps as [|q ps]; [discriminate|]. reflexivity.
Qed.

(** ** All lines of texts *)
Fixpoint all_pieces (W : list (nat * nat)) (vs : list (list N)) (pss : list (list (list N))) : Prop :=
  match W, vs, pss with
  | [], [], [] => True
  | (tw, _) :: W, v :: vs, ps :: pss => pieces tw v ps /\ all_pieces W vs pss
  | _, _, _ => False
  end.
Fixpoint glue (ls ps : list (list N)) (pss : list (list (list N))) : list (list (list N)) :=
  match ls, ps, pss with
  | l :: ls, p :: ps, q :: pss => (match l with [] => [] | _ => p :: q end) :: glue ls ps pss
  | _, _, _ => []
  end.
Lemma next_nil : forall w p rest, next w [] p rest -> p = [] /\ rest = [].
Proof.
  intros w p rest H. inversion H as [Hc Hs|Hc Hs|i Hi Hc Hb]; subst; auto. cbn in Hc. lia.
Qed.
Lemma glue_ok : forall W ls ps rs pss, steps W ls ps rs -> all_pieces W rs pss ->
  all_pieces W ls (glue ls ps pss) /\ at_line (glue ls ps pss) 0 = ps /\ (forall k, at_line (glue ls ps pss) (S k) = at_line pss k).
Proof.
  induction W as [|[tw cw] W IH]; intros [|l ls] [|p ps] [|r rs] [|q pss] S A; try destruct S; try destruct A; [cbn; auto|].
  destruct (IH _ _ _ _ H0 H2) as [I1 [I2 I3]]. cbn [glue all_pieces at_line map]. destruct l as [|c l].
  - destruct (next_nil _ _ _ H) as [-> ->]. rewrite (pieces_nil_inv _ _ H1). split; [split; [constructor|exact I1]|]. split.
    + cbn [nth]. f_equal. exact I2.
    + intros k. cbn [nth]. f_equal; [destruct k; reflexivity|]. apply I3.
  - split; [split; [econstructor; [discriminate|exact H|exact H1]|exact I1]|]. split; [cbn [nth]; f_equal; exact I2|]. intros k. cbn [nth]. f_equal. apply I3.
Qed.
Definition mx (pss : list (list (list N))) : nat := fold_right Nat.max 0 (map (@length _) pss).
Lemma mx_one : forall pss, fold_right Nat.max 1 (map (@length (list N)) pss) = Nat.max 1 (mx pss).
Proof. unfold mx. induction pss as [|q pss IH]; [reflexivity|]. cbn [map fold_right]. rewrite IH. lia. Qed.
Lemma glue_mx : forall W ls ps rs pss, steps W ls ps rs -> all_pieces W rs pss ->
  mx (glue ls ps pss) <= S (mx pss) /\ (1 <= mx pss -> mx (glue ls ps pss) = S (mx pss)).
Proof.
  induction W as [|[tw cw] W IH]; intros [|l ls] [|p ps] [|r rs] [|q pss] S A; try destruct S; try destruct A; [cbn; lia|].
  destruct (IH _ _ _ _ H0 H2) as [I1 I2]. cbn [glue]. unfold mx in *. cbn [map fold_right]. destruct l as [|c l].
  - destruct (next_nil _ _ _ H) as [-> ->]. rewrite (pieces_nil_inv _ _ H1). cbn [length]. lia.
  - cbn [length]. set (a := fold_right Nat.max 0 (map (@length _) pss)) in *. set (b := fold_right Nat.max 0 (map (@length _) (glue ls ps pss))) in *. clearbody a b.
    destruct (Nat.eq_dec a 0) as [->|Ha]; [lia|]. specialize (I2 ltac:(lia)). lia.
Qed.
Lemma all_pieces_some : forall W rs pss x, all_pieces W rs pss -> In x rs -> x <> [] -> 1 <= mx pss.
Proof.
  induction W as [|[tw cw] W IH]; intros [|r rs] [|q pss] x A Hx Hn; try destruct A; [destruct Hx|]. unfold mx in *. cbn [map fold_right].
  destruct Hx as [->|Hx].
  - inversion H; subst; [congruence|]. cbn [length]. lia.
  - specialize (IH _ _ _ H0 Hx Hn). lia.
Qed.
Lemma vis_in : forall A cols (xs : list A) x, In x (vis cols xs) -> In x xs.
Proof.
  induction cols as [|[j i] cols IH]; intros xs x H; [destruct H|]. destruct xs as [|y xs]; [destruct H|]. cbn [vis] in H.
  destruct (is_a j); [right; apply IH; exact H|]. destruct H as [->|H]; [left; reflexivity|right; apply IH; exact H].
Qed.
Lemma text_lines_ok : forall fuel cols szs ls lines, Forall ok_col cols -> fitc cols szs ls -> text_lines fuel cols szs ls = Ok lines ->
  exists pss, all_pieces (vis cols szs) (vis cols ls) pss
    /\ lines = map (fun k => text_line (cells cols) (vis cols szs) (at_line pss k)) (seq 0 (fold_right Nat.max 1 (map (@length _) pss))).
Proof.
  induction fuel as [|fuel IH]; intros cols szs ls lines O F H; [discriminate|]. cbn [text_lines] in H.
  destruct (text_cells cols szs ls) as [[s rs]| | |] eqn:Et; try discriminate. cbn [rbind] in H.
  destruct (text_cells_ok _ _ _ _ _ O F Et) as [ps [S [F' [Es D]]]].
  assert (Hb : bar s = text_line (cells cols) (vis cols szs) ps). { unfold text_line, bar, closed. rewrite Es. reflexivity. }
  destruct (existsb (fun l => negb (length l =? 0)) rs) eqn:Ex.
  - destruct (text_lines fuel cols szs rs) as [more| | |] eqn:Em; try discriminate. cbn [rbind] in H. injection H as <-.
    destruct (IH _ _ _ _ O F' Em) as [pss [A Hm]]. exists (glue (vis cols ls) ps pss).
    destruct (glue_ok _ _ _ _ _ S A) as [G1 [G2 G3]]. destruct (glue_mx _ _ _ _ _ S A) as [_ G4]. split; [exact G1|].
    assert (M : 1 <= mx pss).
    { apply existsb_exists in Ex. destruct Ex as [x [Hx Hx']]. assert (Hne : x <> []) by (intros ->; discriminate).
      eapply all_pieces_some; [exact A|apply D; eassumption|exact Hne]. }
    rewrite mx_one, (G4 M). replace (Nat.max 1 (Datatypes.S (mx pss))) with (Datatypes.S (Nat.max 1 (mx pss))) by lia.
    cbn [seq map]. rewrite G2, Hb. f_equal. rewrite Hm, mx_one. rewrite <- seq_shift, map_map. apply map_ext. intros k. rewrite G3. reflexivity.
  - injection H as <-.
    assert (Hz : forall x, In x rs -> x = []).
    { intros x Hx. destruct x as [|c x]; [reflexivity|]. exfalso. assert (Ht : existsb (fun l => negb (length l =? 0)) rs = true) by (apply existsb_exists; exists (c :: x); split; [exact Hx|reflexivity]). congruence. }
    assert (Hv : forall (W : list (nat * nat)) ls ps rs', steps W ls ps rs' -> (forall x, In x rs' -> x = []) -> all_pieces W rs' (map (fun _ => []) rs') /\ mx (map (fun _ => []) rs') = 0).
    { induction W as [|[tw cw] W IHW]; intros [|l0 ls0] [|p0 ps0] [|r0 rs0] S0 Z; try destruct S0; [cbn; auto|].
      destruct (IHW _ _ _ H0 ltac:(intros; apply Z; right; assumption)) as [A1 A2]. rewrite (Z r0 ltac:(left; reflexivity)). split; [split; [constructor|exact A1]|]. unfold mx in *. cbn [map fold_right length]. lia. }
    destruct (Hv _ _ _ _ S ltac:(intros x Hx; apply Hz; eapply vis_in; exact Hx)) as [A M].
    destruct (glue_ok _ _ _ _ _ S A) as [G1 [G2 _]]. destruct (glue_mx _ _ _ _ _ S A) as [G4 _]. eexists. split; [exact G1|].
    rewrite mx_one. rewrite M in G4. rewrite Nat.max_l by exact G4. cbn [seq map]. rewrite G2, Hb. reflexivity.
Qed.

(** ** Separations *)
Lemma rule_sep_ok : forall p prev c j i cols, In (end_sep i cols) [32; 124; 61]%N ->
  rule_sep p prev c (j, i) cols = if is_last cols then [] else mark prev p (end_sep i cols, c + run cols).
Proof.
  intros p prev c j i cols H. unfold rule_sep. rewrite sep_at_end. destruct (is_last cols); [reflexivity|]. cbv zeta.
  assert (B : (match prev with Some q => (snd (nth (c + run cols) q (0, 0)%N) =? 124) || (snd (nth (c + run cols) q (0, 0)%N) =? 61) | None => false end)%N
              = bar_above prev (c + run cols)).
  { unfold bar_above. destruct prev as [q|]; [|reflexivity]. unfold col in *. destruct (nth_error q (c + run cols)) as [[j' i']|] eqn:E.
    - rewrite (nth_error_nth _ _ _ E). reflexivity.
    - rewrite nth_overflow by (apply nth_error_None; exact E). reflexivity. }
  unfold mark. set (k := c + run cols) in *. clearbody k. destruct H as [<-|[<-|[<-|[]]]].
  - cbn [N.eqb Pos.eqb negb is_bar orb andb bar_of map]. rewrite andb_false_r. cbn [andb]. destruct (p =? 32)%N eqn:E; [|reflexivity]. apply N.eqb_eq in E. subst. reflexivity.
  - cbn [N.eqb Pos.eqb negb is_bar orb andb bar_of map]. destruct (p =? 32)%N; [reflexivity|]. rewrite <- B. rewrite andb_true_r. destruct prev; [|rewrite andb_false_r; reflexivity].
    destruct ((p =? 45)%N && _); reflexivity.
  - cbn [N.eqb Pos.eqb negb is_bar orb andb bar_of map]. destruct (p =? 32)%N; [reflexivity|]. rewrite <- B. rewrite andb_true_r. destruct prev; [|rewrite andb_false_r; reflexivity].
    destruct ((p =? 45)%N && _); reflexivity.
Qed.
Lemma end_sep_in : forall cols i, In i [32; 124; 61]%N -> Forall ok_col cols -> In (end_sep i cols) [32; 124; 61]%N.
Proof.
  induction cols as [|[j i'] cols IH]; intros i Hi O; [exact Hi|]. cbn [end_sep]. destruct (j =? 97)%N; [|exact Hi].
  apply IH; [exact (proj2 (Forall_inv O))|exact (Forall_inv_tail O)].
Qed.
Lemma run_span : forall cols, run cols = span cols.
Proof. induction cols as [|[j i] cols IH]; [reflexivity|]. cbn [run span]. rewrite IH. reflexivity. Qed.
Lemma rule_cells_ok : forall p prev cols szs c, Forall ok_col cols -> length szs = length cols ->
  rule_cells p prev c cols szs = between (filled (vis cols szs) p) (map (mark prev p) (combine (map snd (cells cols)) (ends c cols))).
Proof.
  intros p prev cols. induction cols as [|[j i] cols IH]; intros szs c O L; [reflexivity|]. destruct szs as [|[tw cw] szs]; [discriminate|].
  cbn [length] in L. cbn [rule_cells vis cells ends]. rewrite IH by (exact (Forall_inv_tail O) || lia). rewrite Nat.add_1_r. unfold is_a. destruct (j =? 97)%N eqn:E; [reflexivity|].
  cbn [app]. unfold filled. cbn [map snd combine].
  assert (Le : forall c, length (ends c cols) = length (cells cols)). { clear. induction cols as [|[j i] cols IH]; intros c; [reflexivity|]. cbn [ends cells]. destruct (j =? 97)%N; cbn [app length]; rewrite IH; reflexivity. }
  pose proof (vis_length _ cols szs ltac:(lia)) as Lv.
  rewrite between_cons by (rewrite !map_length, combine_length, map_length, Le; lia).
  rewrite rule_sep_ok by (apply end_sep_in; [exact (proj2 (Forall_inv O))|exact (Forall_inv_tail O)]).
  rewrite run_span, <- app_assoc. f_equal. f_equal. destruct (is_last cols) eqn:El.
  - apply cells_last in El. rewrite El in Lv. destruct (vis cols szs); [reflexivity|discriminate].
  - destruct (cells cols) as [|x cs] eqn:Ecs; [apply cells_last in Ecs; congruence|]. destruct (vis cols szs); [discriminate|reflexivity].
Qed.
Lemma after_cells_ok : forall p prev cols szs c, Forall ok_col cols -> Forall (fun c => snd c <> 61%N) cols -> length szs = length cols ->
  exists ms, Forall2 (mark_below p) (map snd (cells cols)) ms /\ after_cells p prev c cols szs = between (filled (vis cols szs) p) ms.
Proof.
  intros p prev cols. induction cols as [|[j i] cols IH]; intros szs c O Q L; [exists []; split; [constructor|reflexivity]|]. destruct szs as [|[tw cw] szs]; [discriminate|].
  cbn [length] in L. destruct (IH szs (c + 1) (Forall_inv_tail O) (Forall_inv_tail Q) ltac:(lia)) as [ms [M1 M2]].
  cbn [after_cells vis cells]. rewrite M2. unfold is_a. destruct (j =? 97)%N eqn:E; [exists ms; split; [exact M1|reflexivity]|].
  cbn [app]. unfold filled. cbn [map snd].
  pose proof (vis_length _ cols szs ltac:(lia)) as Lv. pose proof (f2_length _ _ _ _ _ M1) as Lm. rewrite map_length in Lm.
  assert (Hi : In (end_sep i cols) [32; 124]%N).
  { pose proof (end_sep_in cols i (proj2 (Forall_inv O)) (Forall_inv_tail O)) as H.
    assert (G : forall cols i, i <> 61%N -> Forall (fun c => snd c <> 61%N) cols -> end_sep i cols <> 61%N).
    { clear. induction cols as [|[j i'] cols IH]; intros i H F; [exact H|]. cbn [end_sep]. destruct (j =? 97)%N; [|exact H]. apply IH; [exact (Forall_inv F)|exact (Forall_inv_tail F)]. }
    specialize (G cols i (Forall_inv Q) (Forall_inv_tail Q)). destruct H as [H|[H|[H|[]]]]; [left; exact H|right; left; exact H|congruence]. }
  assert (M : exists m, mark_below p (end_sep i cols) m /\ after_sep p prev c (j, i) cols = if is_last cols then [] else m).
  { unfold after_sep, mark_below. rewrite sep_at_end. cbv zeta. destruct (p =? 32)%N eqn:Ep.
    - exists [end_sep i cols]. split; [reflexivity|]. destruct (is_last cols); [reflexivity|]. apply N.eqb_eq in Ep. subst p. destruct Hi as [<-|[<-|[]]]; reflexivity.
    - destruct Hi as [<-|[<-|[]]].
      + exists [p]. split; [left; reflexivity|]. destruct (is_last cols); reflexivity.
      + destruct ((snd (j, i) =? 124)%N && (p =? 45)%N && match prev with Some q => (snd (nth (c + run cols) q (0, 0)) =? 124)%N | None => false end) eqn:Eb.
        * exists [43%N]. split; [right; split; [apply andb_true_iff in Eb; destruct Eb as [Eb _]; apply andb_true_iff in Eb; apply N.eqb_eq; exact (proj2 Eb)|split; reflexivity]|].
          destruct (is_last cols); reflexivity.
        * exists [p]. split; [left; reflexivity|]. destruct (is_last cols); reflexivity. }
  destruct M as [m [Hm1 Hm2]]. exists (m :: ms). split; [constructor; assumption|].
  rewrite between_cons by (rewrite map_length; lia). rewrite Hm2, <- app_assoc. f_equal. f_equal. destruct (is_last cols) eqn:El.
  - apply cells_last in El. rewrite El in Lv. destruct (vis cols szs); [reflexivity|discriminate].
  - destruct (cells cols) as [|x cs] eqn:Ecs; [apply cells_last in Ecs; congruence|]. destruct (vis cols szs); [discriminate|reflexivity].
Qed.
