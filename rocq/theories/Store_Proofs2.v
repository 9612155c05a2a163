From Coq Require Import List ZArith NArith Arith Bool String Lia.
From Verif Require Import Base Store_Model Store_Spec Store_Proofs.
Import ListNotations.

(** * One row *)
Definition ent (t : talign) (k : str) : option evaluation :=
  match massoc t k with Some (Some e) => Some e | _ => None end.

Lemma ent_mput : forall t k v k', ent (mput t k v) k' = if str_eqb k k' then v else ent t k'.
Proof. intros. unfold ent. rewrite massoc_mput. destruct (str_eqb k k'); [|reflexivity]. destruct v; reflexivity. Qed.

Lemma mindex_ent : forall t k, fst (mindex None t k) = ent t k /\ forall k', ent (snd (mindex None t k)) k' = ent t k'.
Proof.
  intros t k. unfold mindex. destruct (massoc t k) as [v|] eqn:E; cbn [fst snd].
  - split; [|reflexivity]. unfold ent. rewrite E. destruct v; reflexivity.
  - split; [unfold ent; rewrite E; reflexivity|]. intro k'. rewrite ent_mput.
    destruct (str_eqb k k') eqn:Q; [|reflexivity]. apply str_eqb_spec in Q. subst. unfold ent. rewrite E. reflexivity.
Qed.

Lemma ent_new : forall ref k, ent (new_talign ref) k =
  if str_eqb reference_key k then Some {| ev_token := ref; ev_result := RReference |} else None.
Proof. intros. unfold new_talign. rewrite ent_mput. destruct (str_eqb _ _); reflexivity. Qed.

Lemma add_ent : forall t k tok,
  fst (add_alignment_for t k tok) = match ent t k with Some _ => 0 | None => 1 end /\
  forall k', ent (snd (add_alignment_for t k tok)) k' =
    match ent t k with
    | Some _ => ent t k'
    | None => if str_eqb k k' then Some {| ev_token := tok; ev_result := RUnavailable |} else ent t k'
    end.
Proof.
  intros t k tok. destruct (mindex_ent t k) as [A B]. unfold add_alignment_for.
  destruct (mindex None t k) as [[e|] t']; cbn [fst snd] in *; rewrite <- A; split; try reflexivity.
  - exact B.
  - intro k'. rewrite ent_mput, B. reflexivity.
Qed.

Lemma token_ent : forall t k,
  fst (get_token_for t k) = match ent t k with Some e => ev_token e | None => None end /\
  forall k', ent (snd (get_token_for t k)) k' = ent t k'.
Proof.
  intros t k. destruct (mindex_ent t k) as [A B]. unfold get_token_for.
  destruct (mindex None t k) as [[e|] t']; cbn [fst snd] in *; rewrite <- A; split; auto.
Qed.
Lemma result_ent : forall t k,
  fst (get_result_for t k) = match ent t k with Some e => ev_result e | None => RInvalid end /\
  forall k', ent (snd (get_result_for t k)) k' = ent t k'.
Proof.
  intros t k. destruct (mindex_ent t k) as [A B]. unfold get_result_for.
  destruct (mindex None t k) as [[e|] t']; cbn [fst snd] in *; rewrite <- A; split; auto.
Qed.
Lemma reference_ent : forall t, get_reference_token t =
  match ent t reference_key with Some e => Ok (ev_token e) | None => Undef end.
Proof.
  intro t. destruct (mindex_ent t reference_key) as [A B]. unfold get_reference_token.
  destruct (mindex None t reference_key) as [[e|] t']; cbn [fst snd] in *; rewrite <- A; reflexivity.
Qed.

Lemma run_ta_app : forall h h' t, run_ta t (h ++ h') = match run_ta t h with Ok t' => run_ta t' h' | e => e end.
Proof.
  induction h as [|o h IH]; intros h' t; cbn [app run_ta]; [reflexivity|].
  destruct (do_ta t o); try reflexivity. apply IH.
Qed.

Lemma first_token_app : forall h h' k, first_token (h ++ h') k =
  match first_token h k with Some x => Some x | None => first_token h' k end.
Proof.
  induction h as [|o h IH]; intros h' k; cbn [app first_token]; [reflexivity|].
  destruct o; try apply IH. destruct (same_str _ _); [reflexivity|apply IH].
Qed.

Lemma rat_app : forall h h' seen, results_after_tokens seen (h ++ h') ->
  results_after_tokens seen h /\
  exists seen', results_after_tokens seen' h' /\ forall k, In k seen' -> In k seen \/ first_token h k <> None.
Proof.
  induction h as [|o h IH]; intros h' seen H; cbn [app results_after_tokens] in H.
  - split; [exact I|]. exists seen. auto.
  - destruct o as [k tok|k|k|k r]; cbn [results_after_tokens first_token].
    + apply IH in H as [A (seen' & B & C)]. split; [exact A|]. exists seen'. split; [exact B|].
      intros k' Hk. apply C in Hk. rewrite same_str_eqb. destruct (str_eqb k k') eqn:E; [right; discriminate|].
      destruct Hk as [[->|Hk]|Hk]; auto. rewrite str_eqb_refl in E. discriminate.
    + apply IH in H. exact H.
    + apply IH in H. exact H.
    + destruct H as [H0 H]. apply IH in H as [A B]. split; [split; assumption|exact B].
Qed.

Lemma run_ta_ent : forall h ref, Forall (fun o => op_key o <> reference_key) h -> results_after_tokens [] h ->
  exists t, run_ta (new_talign ref) h = Ok t /\
    (forall k, k <> reference_key -> ent t k =
       match first_token h k with
       | Some x => Some {| ev_token := x; ev_result := last_result (rev h) k |}
       | None => None
       end) /\
    ent t reference_key = Some {| ev_token := ref; ev_result := RReference |}.
Proof.
  induction h as [|o h IH] using rev_ind; intros ref F R.
  - exists (new_talign ref). split; [reflexivity|]. split.
    + intros k Hk. rewrite ent_new, str_eqb_neq by congruence. reflexivity.
    + rewrite ent_new, str_eqb_refl. reflexivity.
  - apply Forall_app in F as [F FO]. inversion FO as [|? ? NO _]; subst.
    apply rat_app in R as [R (seen & RO & S)].
    destruct (IH ref F R) as (t & E & A & B).
    rewrite run_ta_app, E. cbn [run_ta].
    assert (X : forall k k', k' <> reference_key -> str_eqb k k' = same_str k k') by (intros; symmetry; apply same_str_eqb).
    destruct o as [k tok|k|k|k r]; cbn [do_ta op_key] in *.
    + eexists. split; [reflexivity|]. destruct (add_ent t k tok) as [_ G]. split.
      * intros k' Hk'. rewrite G, first_token_app, rev_app_distr. cbn [first_token rev app last_result].
        rewrite !A by assumption. rewrite same_str_eqb.
        destruct (first_token h k) eqn:Q.
        -- destruct (first_token h k') eqn:Q'; [reflexivity|].
           destruct (str_eqb k k') eqn:Z; [|reflexivity]. apply str_eqb_spec in Z. congruence.
        -- destruct (str_eqb k k') eqn:Z.
           ++ apply str_eqb_spec in Z. subst. rewrite Q. f_equal. f_equal.
              clear - R Q. assert (L : forall h, results_after_tokens [] h -> first_token h k' = None -> last_result (rev h) k' = RUnavailable).
              { clear. induction h as [|o h IH] using rev_ind; intros R Q; [reflexivity|].
                apply rat_app in R as [R (seen & RO & S)]. rewrite first_token_app in Q.
                destruct (first_token h k') eqn:Q'; [discriminate|]. rewrite rev_app_distr. cbn [rev app].
                destruct o; cbn [last_result]; try (apply IH; auto).
                rewrite same_str_eqb. destruct (str_eqb key k') eqn:Z; [|apply IH; auto].
                apply str_eqb_spec in Z. subst. destruct RO as [RO _]. apply S in RO as [[]|RO]. contradiction. }
              symmetry. apply L; assumption.
           ++ destruct (first_token h k'); reflexivity.
      * rewrite G. destruct (ent t k); [exact B|]. rewrite str_eqb_neq by assumption. exact B.
    + eexists. split; [reflexivity|]. destruct (token_ent t k) as [_ G]. split.
      * intros k' Hk'. rewrite G, A, first_token_app, rev_app_distr by assumption. cbn [first_token rev app last_result].
        destruct (first_token h k'); reflexivity.
      * rewrite G. exact B.
    + eexists. split; [reflexivity|]. destruct (result_ent t k) as [_ G]. split.
      * intros k' Hk'. rewrite G, A, first_token_app, rev_app_distr by assumption. cbn [first_token rev app last_result].
        destruct (first_token h k'); reflexivity.
      * rewrite G. exact B.
    + unfold set_result_for. destruct (mindex_ent t k) as [M1 M2].
      destruct RO as [RO _]. apply S in RO as [[]|RO].
      destruct (mindex None t k) as [v t'] eqn:EM. cbn [fst snd] in *. subst v.
      rewrite A by assumption. destruct (first_token h k) as [x|] eqn:Q; [|contradiction].
      eexists. split; [reflexivity|]. split.
      * intros k' Hk'. rewrite ent_mput, M2, A, first_token_app, rev_app_distr by assumption.
        cbn [first_token rev app last_result ev_token]. rewrite same_str_eqb.
        destruct (str_eqb k k') eqn:Z.
        -- apply str_eqb_spec in Z. subst. rewrite Q. reflexivity.
        -- destruct (first_token h k'); reflexivity.
      * rewrite ent_mput, M2, str_eqb_neq by assumption. exact B.
Qed.

(** * Aligned segments *)
Section Aseg.
  Variable own : nat -> bool.

  Lemma run_as_app : forall h h' a, run_as own a (h ++ h') =
    match run_as own a h with
    | Ok (ns, a') => match run_as own a' h' with
                     | Ok (ns', a'') => Ok (ns ++ ns', a'')
                     | Exit => Exit | Undef => Undef | NoFuel => NoFuel end
    | Exit => Exit | Undef => Undef | NoFuel => NoFuel
    end.
  Proof.
    induction h as [|[[ref k] t] h IH]; intros h' a; cbn [app run_as].
    - destruct (run_as own a h') as [[? ?]| | |]; reflexivity.
    - destruct (add_token_alignment own a ref k t) as [[n a']| | |]; try reflexivity.
      rewrite IH. destruct (run_as own a' h) as [[ns a'']| | |]; try reflexivity.
      destruct (run_as own a'' h') as [[? ?]| | |]; reflexivity.
  Qed.

  Lemma codes_app : forall h h' before, codes own before (h ++ h') = codes own before h ++ codes own (before ++ h) h'.
  Proof.
    induction h as [|[[ref k] t] h IH]; intros h' before; cbn [app codes].
    - rewrite app_nil_r. reflexivity.
    - rewrite IH, <- app_assoc. reflexivity.
  Qed.

  Lemma first_for_app : forall h h' r k, first_for (h ++ h') r k =
    match first_for h r k with Some x => Some x | None => first_for h' r k end.
  Proof.
    induction h as [|[[ref q] t] h IH]; intros h' r k; cbn [app first_for]; [reflexivity|].
    destruct ref; [|apply IH]. destruct (_ && _); [reflexivity|apply IH].
  Qed.

  Lemma first_for_mine : forall h r k, own r = true -> first_for (mine own h) r k = first_for h r k.
  Proof.
    intros h r k O. unfold mine. induction h as [|[[ref q] t] h IH]; [reflexivity|].
    cbn [filter fst]. destruct ref as [x|]; cbn [first_for].
    - destruct (own x) eqn:X; cbn [first_for].
      + rewrite IH. reflexivity.
      + destruct (Nat.eqb x r) eqn:E; [apply Nat.eqb_eq in E; congruence|]. exact IH.
    - exact IH.
  Qed.

  Definition refs_of (h : list as_op) : list nat :=
    flat_map (fun o => match fst (fst o) with Some x => [x] | None => [] end) h.

  Lemma row_refs_app : forall h seen h', (forall x, In x seen -> True) ->
    row_refs seen (h ++ h') = row_refs seen h ++ row_refs (rev (refs_of h) ++ seen) h'.
  Proof.
    intros h seen h' _.
    assert (P : forall h' s1 s2, (forall x, In x s1 <-> In x s2) -> row_refs s1 h' = row_refs s2 h').
    { clear. induction h' as [|[[ref q] t] h' IH]; intros s1 s2 E; [reflexivity|]. destruct ref as [x|]; cbn [row_refs].
      - destruct (in_dec Nat.eq_dec x s1) as [i|n]; destruct (in_dec Nat.eq_dec x s2) as [i'|n'].
        + apply IH. exact E.
        + exfalso. apply n', E, i.
        + exfalso. apply n, E, i'.
        + f_equal. apply IH. intro y. cbn [In]. rewrite (E y). reflexivity.
      - f_equal. apply IH. exact E. }
    revert seen h'. induction h as [|[[ref q] t] h IH]; intros seen h'; [reflexivity|].
    destruct ref as [x|]; cbn [app row_refs refs_of flat_map fst].
    - cbn [rev app]. destruct (in_dec Nat.eq_dec x seen) as [i|n].
      + rewrite IH. f_equal. apply P. intro y. fold (refs_of h). rewrite !in_app_iff. cbn [In].
        split; [tauto|]. intros [[H|[<-|[]]]|H]; auto.
      + rewrite IH. cbn [app]. f_equal. f_equal. apply P. intro y. fold (refs_of h).
        rewrite !in_app_iff. cbn [In]. tauto.
    - rewrite IH. reflexivity.
  Qed.

  Lemma row_refs_snoc : forall h ref q t, row_refs [] (h ++ [(ref, q, t)]) =
    row_refs [] h ++ match ref with
                     | None => [None]
                     | Some x => if in_dec Nat.eq_dec x (refs_of h) then [] else [Some x]
                     end.
  Proof.
    intros h ref q t. rewrite row_refs_app by auto. f_equal. destruct ref as [x|]; cbn [row_refs]; [|reflexivity].
    rewrite app_nil_r.
    destruct (in_dec Nat.eq_dec x (rev (refs_of h))) as [i|n]; destruct (in_dec Nat.eq_dec x (refs_of h)) as [i'|n']; try reflexivity.
    - exfalso. apply n'. apply in_rev. exact i.
    - exfalso. apply n. apply in_rev in i'. exact i'.
  Qed.

  Lemma row_refs_in : forall h x, In (Some x) (row_refs [] h) <-> In x (refs_of h).
  Proof.
    induction h as [|[[ref q] t] h IH] using rev_ind; intro x; [reflexivity|].
    rewrite row_refs_snoc. unfold refs_of. rewrite flat_map_app. cbn [flat_map fst]. rewrite app_nil_r. fold (refs_of h).
    rewrite !in_app_iff, IH. destruct ref as [y|]; cbn [app In].
    - destruct (in_dec Nat.eq_dec y (refs_of h)) as [i|n]; cbn [In].
      + split; [tauto|]. intros [H|[H|[]]]; [left; exact H|left; rewrite <- H; exact i].
      + split; (intros [H|[H|[]]]; [left; exact H|right; left; congruence]).
    - split; (intros [H|H]; [left; exact H|]); [destruct H as [H|[]]; discriminate|destruct H].
  Qed.

  (** What a row holds after the registrations [h]. *)
  Definition row_ok (h : list as_op) (x : nat) (t : talign) : Prop :=
    forall k, k <> reference_key -> ent t k =
      match first_for h x k with Some y => Some {| ev_token := y; ev_result := RUnavailable |} | None => None end.
  Definition ins_ok (e : str * option nat) (t : talign) : Prop :=
    forall k, k <> reference_key -> ent t k =
      if str_eqb (fst e) k then Some {| ev_token := snd e; ev_result := RUnavailable |} else None.
  Definition is_none (o : option nat) : bool := match o with None => true | Some _ => false end.
  Definition row_ref (t : talign) : option (option nat) := option_map ev_token (ent t reference_key).
  Definition none_rows (rows : list talign) : list talign :=
    filter (fun t => match row_ref t with Some None => true | _ => false end) rows.

  Record ainv (h : list as_op) (a : aseg) : Prop := {
    i_refs : map row_ref (as_rows a) = map Some (row_refs [] h);
    i_index : forall x i, iassoc (as_index a) x = Some i -> nth_error (row_refs [] h) i = Some (Some x);
    i_index2 : forall x, In x (refs_of h) -> iassoc (as_index a) x <> None;
    i_rows : forall i t x, nth_error (as_rows a) i = Some t -> nth_error (row_refs [] h) i = Some (Some x) -> row_ok h x t;
    i_ins : Forall2 ins_ok (inserted h) (none_rows (as_rows a))
  }.

  Lemma nth_error_update_at : forall A (l : list A) i x j, nth_error (update_at l i x) j =
    if Nat.eqb i j then match nth_error l j with Some _ => Some x | None => None end else nth_error l j.
  Proof.
    induction l as [|y l IH]; intros i x j; cbn [update_at].
    - destruct (Nat.eqb i j); destruct j; reflexivity.
    - destruct i; destruct j; cbn [nth_error Nat.eqb]; try reflexivity. apply IH.
  Qed.
  Lemma map_update_at : forall A B (f : A -> B) (l : list A) i x y, nth_error l i = Some y -> f x = f y ->
    map f (update_at l i x) = map f l.
  Proof.
    induction l as [|z l IH]; intros i x y E F; destruct i; cbn [update_at map nth_error] in *; try discriminate.
    - injection E as ->. rewrite F. reflexivity.
    - f_equal. eapply IH; eassumption.
  Qed.
  Lemma update_at_app : forall A (l : list A) x y, update_at (l ++ [x]) (List.length l) y = l ++ [y].
  Proof. induction l as [|z l IH]; intros; cbn [app update_at List.length]; [reflexivity|]. rewrite IH. reflexivity. Qed.
  Lemma filter_update_at : forall A (p : A -> bool) (l : list A) i x y, nth_error l i = Some y ->
    p x = false -> p y = false -> filter p (update_at l i x) = filter p l.
  Proof.
    induction l as [|z l IH]; intros i x y E F G; destruct i; cbn [update_at filter nth_error] in *; try discriminate.
    - injection E as ->. rewrite F, G. reflexivity.
    - destruct (p z); [f_equal|]; eapply IH; eassumption.
  Qed.

  Lemma row_ref_add : forall t k tok, k <> reference_key -> row_ref t <> None ->
    row_ref (snd (add_alignment_for t k tok)) = row_ref t.
  Proof.
    intros t k tok N _. unfold row_ref. destruct (add_ent t k tok) as [_ G]. rewrite G.
    destruct (ent t k); [reflexivity|]. rewrite str_eqb_neq by assumption. reflexivity.
  Qed.

  Lemma first_for_none : forall h x k, ~ In x (refs_of h) -> first_for h x k = None.
  Proof.
    induction h as [|[[ref q] t] h IH]; intros x k N; [reflexivity|]. cbn [refs_of flat_map fst] in N. fold (refs_of h) in N.
    destruct ref as [y|]; cbn [first_for].
    - destruct (Nat.eqb y x) eqn:E.
      + apply Nat.eqb_eq in E. subst. exfalso. apply N. left. reflexivity.
      + cbn [andb]. apply IH. intro. apply N. right. assumption.
    - apply IH. exact N.
  Qed.

  Lemma inserted_app : forall h h', inserted (h ++ h') = inserted h ++ inserted h'.
  Proof.
    induction h as [|[[ref q] t] h IH]; intro h'; cbn [app inserted]; [reflexivity|].
    destruct ref; [apply IH|]. cbn [app]. rewrite IH. reflexivity.
  Qed.

  Lemma row_ok_snoc_other : forall h x t o, row_ok h x t ->
    (match fst (fst o) with Some y => y <> x | None => True end) -> row_ok (h ++ [o]) x t.
  Proof.
    intros h x t [[ref q] tok] R D k N. rewrite (R k N), first_for_app. cbn [fst first_for] in *.
    destruct (first_for h x k); [reflexivity|]. destruct ref as [y|]; [|reflexivity].
    apply Nat.eqb_neq in D. rewrite D. reflexivity.
  Qed.

  Lemma nodup_row_refs : forall h i j x, nth_error (row_refs [] h) i = Some (Some x) -> nth_error (row_refs [] h) j = Some (Some x) -> i = j.
  Proof.
    induction h as [|[[ref q] t] h IH] using rev_ind; intros i j x A B.
    - destruct i; discriminate.
    - rewrite row_refs_snoc in A, B.
      assert (L : forall n, nth_error (row_refs [] h) n = Some (Some x) -> In x (refs_of h)).
      { intros n E. apply nth_error_In in E. apply row_refs_in. exact E. }
      set (R := row_refs [] h) in *.
      assert (S : forall n, nth_error (R ++ match ref with None => [None] | Some x => if in_dec Nat.eq_dec x (refs_of h) then [] else [Some x] end) n = Some (Some x) ->
        nth_error R n = Some (Some x) \/ (n = List.length R /\ ~ In x (refs_of h))).
      { intros n E. destruct (Nat.lt_ge_cases n (List.length R)) as [l|g].
        - rewrite nth_error_app1 in E by assumption. auto.
        - rewrite nth_error_app2 in E by assumption. right. destruct ref as [y|].
          + destruct (in_dec Nat.eq_dec y (refs_of h)) as [I|NI].
            * destruct (n - List.length R); discriminate.
            * destruct (n - List.length R) as [|m] eqn:Q; [|destruct m; discriminate]. cbn [nth_error] in E.
              injection E as ->. split; [lia|assumption].
          + destruct (n - List.length R) as [|m] eqn:Q; [discriminate|destruct m; discriminate]. }
      apply S in A. apply S in B. destruct A as [A|[A1 A2]]; destruct B as [B|[B1 B2]].
      + eapply IH; eassumption.
      + apply L in A. contradiction.
      + apply L in B. contradiction.
      + congruence.
  Qed.

  Lemma add_step : forall h a ref k tok, ainv h a -> k <> reference_key ->
    (match ref with Some x => own x | None => true end) = true ->
    exists a', add_token_alignment own a ref k tok =
      Ok ((match ref with None => 1 | Some x => match first_for h x k with None => 1 | Some _ => 0 end end)%Z, a') /\
      ainv (h ++ [(ref, k, tok)]) a'.
  Proof.
    intros h a ref k tok [I1 I2 I2' I3 I4] N O. unfold add_token_alignment.
    assert (LR : List.length (as_rows a) = List.length (row_refs [] h)).
    { apply (f_equal (@List.length _)) in I1. rewrite !map_length in I1. exact I1. }
    replace (match ref with Some r => negb (own r) | None => false end) with false
      by (destruct ref; [rewrite O|]; reflexivity).
    unfold get_talign_for.
    destruct (match ref with Some r => iassoc (as_index a) r | None => None end) as [i|] eqn:E.
    - destruct ref as [x|]; [|discriminate]. pose proof (I2 _ _ E) as P.
      assert (Q : exists t, nth_error (as_rows a) i = Some t).
      { destruct (nth_error (as_rows a) i) eqn:Z; [eauto|]. apply nth_error_None in Z.
        assert (nth_error (row_refs [] h) i = None) by (apply nth_error_None; lia). congruence. }
      destruct Q as [t Q]. rewrite Q. pose proof (I3 _ _ _ Q P) as R.
      destruct (add_ent t k tok) as [A1 A2]. destruct (add_alignment_for t k tok) as [n t'] eqn:AE. cbn [fst snd] in *.
      assert (INX : In x (refs_of h)) by (apply row_refs_in; eapply nth_error_In; exact P).
      assert (NR : row_ref t = Some (Some x)).
      { assert (M : nth_error (map row_ref (as_rows a)) i = Some (row_ref t)) by (apply map_nth_error; exact Q).
        rewrite I1 in M. rewrite (map_nth_error Some _ _ P) in M. congruence. }
      assert (NR' : row_ref t' = row_ref t).
      { replace t' with (snd (add_alignment_for t k tok)) by (rewrite AE; reflexivity). apply row_ref_add; [exact N|congruence]. }
      eexists. split.
      + rewrite A1, (R k N). destruct (first_for h x k); reflexivity.
      + assert (RS : row_refs [] (h ++ [(Some x, k, tok)]) = row_refs [] h).
        { rewrite row_refs_snoc. destruct (in_dec Nat.eq_dec x (refs_of h)); [apply app_nil_r|contradiction]. }
        split; cbn [as_rows as_index].
        * rewrite RS, <- I1. eapply map_update_at; [exact Q|congruence].
        * intros y j Hy. rewrite RS. apply I2. exact Hy.
        * intros y Hy. apply I2'. unfold refs_of in Hy. rewrite flat_map_app in Hy. cbn [flat_map fst app] in Hy.
          apply in_app_iff in Hy as [Hy|[<-|[]]]; assumption.
        * intros j t0 y J1 J2. rewrite RS in J2. rewrite nth_error_update_at in J1.
          destruct (Nat.eqb i j) eqn:EJ.
          -- apply Nat.eqb_eq in EJ. subst j. rewrite Q in J1. injection J1 as <-. assert (y = x) by congruence. subst y.
             intros k' N'. rewrite A2, (R k N), (R k' N'), first_for_app. cbn [first_for]. rewrite Nat.eqb_refl, same_str_eqb. cbn [andb].
             destruct (first_for h x k) eqn:F1.
             ++ destruct (first_for h x k') eqn:F2; [reflexivity|]. destruct (str_eqb k k') eqn:Z; [|reflexivity].
                apply str_eqb_spec in Z. congruence.
             ++ destruct (str_eqb k k') eqn:Z.
                ** apply str_eqb_spec in Z. subst. rewrite F1. reflexivity.
                ** destruct (first_for h x k'); reflexivity.
          -- apply row_ok_snoc_other; [eapply I3; eassumption|]. cbn [fst]. intros <-.
             apply Nat.eqb_neq in EJ. apply EJ. eapply nodup_row_refs; eassumption.
        * rewrite inserted_app. cbn [inserted]. rewrite app_nil_r. unfold none_rows.
          rewrite (filter_update_at _ _ _ _ _ _ Q); [exact I4| |]; rewrite ?NR', NR; reflexivity.
    - cbn [as_rows as_index]. rewrite nth_error_app2, Nat.sub_diag by lia. cbn [nth_error].
      set (t := new_talign ref).
      destruct (add_ent t k tok) as [A1 A2]. destruct (add_alignment_for t k tok) as [n t'] eqn:AE. cbn [fst snd] in *.
      assert (T0 : forall k', k' <> reference_key -> ent t k' = None).
      { intros k' N'. unfold t. rewrite ent_new, str_eqb_neq by congruence. reflexivity. }
      assert (TR : row_ref t' = Some ref).
      { replace t' with (snd (add_alignment_for t k tok)) by (rewrite AE; reflexivity). rewrite row_ref_add.
        - unfold row_ref, t. rewrite ent_new, str_eqb_refl. reflexivity.
        - exact N.
        - unfold row_ref, t. rewrite ent_new, str_eqb_refl. discriminate. }
      rewrite T0 in A1, A2 by assumption. subst n.
      assert (NEW : match ref with Some x => ~ In x (refs_of h) | None => True end).
      { destruct ref as [x|]; [|exact I]. intro H. apply I2' in H. contradiction. }
      assert (RS : row_refs [] (h ++ [(ref, k, tok)]) = row_refs [] h ++ [ref]).
      { rewrite row_refs_snoc. destruct ref as [x|]; [|reflexivity]. destruct (in_dec Nat.eq_dec x (refs_of h)); [contradiction|reflexivity]. }
      exists {| as_rows := update_at (as_rows a ++ [t]) (List.length (as_rows a)) t';
        as_index := match ref with Some r => (r, List.length (as_rows a)) :: as_index a | None => as_index a end |}. split.
      + destruct ref as [x|]; [|reflexivity]. rewrite first_for_none by assumption. reflexivity.
      + rewrite update_at_app. split; cbn [as_rows as_index].
        * rewrite RS, !map_app, I1. cbn [map]. rewrite TR. reflexivity.
        * intros y j Hy. rewrite RS.
          assert (D : iassoc (as_index a) y = Some j \/ (ref = Some y /\ j = List.length (as_rows a))).
          { destruct ref as [x|]; [|auto]. cbn [iassoc] in Hy. destruct (Nat.eqb x y) eqn:Z; [|auto].
            apply Nat.eqb_eq in Z. right. split; congruence. }
          destruct D as [D|[-> ->]].
          -- apply I2 in D. rewrite nth_error_app1; [exact D|]. apply nth_error_Some. congruence.
          -- rewrite nth_error_app2, LR, Nat.sub_diag by lia. reflexivity.
        * intros y Hy. unfold refs_of in Hy. rewrite flat_map_app in Hy. cbn [flat_map fst app] in Hy. fold (refs_of h) in Hy.
          apply in_app_iff in Hy. destruct ref as [x|]; cbn [app] in Hy.
          -- cbn [iassoc]. destruct (Nat.eqb x y) eqn:Z; [discriminate|]. apply I2'.
             destruct Hy as [Hy|[<-|[]]]; [exact Hy|]. rewrite Nat.eqb_refl in Z. discriminate.
          -- apply I2'. destruct Hy as [Hy|[]]; exact Hy.
        * intros j t0 y J1 J2. rewrite RS in J2.
          destruct (Nat.lt_ge_cases j (List.length (as_rows a))) as [l|g].
          -- rewrite nth_error_app1 in J1 by lia. rewrite nth_error_app1 in J2 by lia.
             apply row_ok_snoc_other; [eapply I3; eassumption|]. cbn [fst]. destruct ref as [x|]; [|exact I].
             intros <-. apply NEW. apply row_refs_in. eapply nth_error_In. exact J2.
          -- rewrite nth_error_app2 in J1 by lia. rewrite nth_error_app2 in J2 by lia. rewrite LR in J1.
             destruct (j - List.length (row_refs [] h)) as [|m]; [|destruct m; discriminate]. cbn [nth_error] in J1, J2.
             injection J1 as <-. injection J2 as ->. intros k' N'. rewrite A2, first_for_app, first_for_none by assumption.
             cbn [first_for]. rewrite Nat.eqb_refl, same_str_eqb. cbn [andb]. rewrite T0 by assumption.
             destruct (str_eqb k k'); reflexivity.
        * rewrite inserted_app. unfold none_rows. rewrite filter_app. cbn [filter]. rewrite TR.
          destruct ref as [x|]; cbn [inserted].
          -- rewrite !app_nil_r. exact I4.
          -- apply Forall2_app; [exact I4|]. constructor; [|constructor]. intros k' N'. rewrite A2, T0 by assumption. cbn [fst snd].
             destruct (str_eqb k k'); reflexivity.
  Qed.

  Lemma run_as_ok : forall h, Forall (fun o => snd (fst o) <> reference_key) h ->
    exists a, run_as own new_aseg h = Ok (codes own [] h, a) /\ ainv (mine own h) a.
  Proof.
    induction h as [|[[ref k] tok] h IH] using rev_ind; intro F.
    - exists new_aseg. split; [reflexivity|]. split; cbn [as_rows as_index new_aseg mine filter row_refs map].
      + reflexivity.
      + intros x i H. discriminate.
      + intros x [].
      + intros i t x H. destruct i; discriminate.
      + constructor.
    - apply Forall_app in F as [F FO]. inversion FO as [|? ? NO _]; subst. cbn [fst snd] in NO.
      destruct (IH F) as (a & E & I). rewrite run_as_app, E. cbn [run_as].
      rewrite codes_app. cbn [codes app].
      unfold mine. rewrite filter_app. fold (mine own h). cbn [filter fst].
      destruct (match ref with Some x => own x | None => true end) eqn:O.
      + destruct (add_step (mine own h) a ref k tok I NO O) as (a' & E' & I').
        exists a'. rewrite E'. split; [|exact I']. do 3 f_equal. destruct ref as [x|]; [|reflexivity].
        rewrite O, first_for_mine by assumption. reflexivity.
      + exists a. destruct ref as [x|]; [|discriminate]. unfold add_token_alignment. rewrite O. cbn [negb].
        split; [reflexivity|]. rewrite app_nil_r. exact I.
  Qed.
End Aseg.
