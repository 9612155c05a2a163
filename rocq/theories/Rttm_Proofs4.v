(** Proofs about the reading of RTTM files: the turns and their words. *)
From Coq Require Import String List NArith ZArith Arith Bool Ascii Lia Sorted.
From Verif Require Import Base Store_Model Store_Proofs Segm_Model Graph_Model Links_Model Links_Spec Links_Proofs Token_Model Alt_Model Alt_Spec Alt_Proofs Alt_Proofs2 AsTrn_Model AsTrn_Spec AsTrn_Proofs AsStm_Model AsStm_Spec AsStm_Proofs1 AsStm_Proofs2 Rttm_Model Rttm_Spec Rttm_Proofs1 Rttm_Proofs2 Rttm_Proofs3.
Import ListNotations.
Local Open Scope res_scope.
Local Notation length := List.length.

(** ** Lines *)
Lemma begins_iff p l : begins (bytes p) l = true <-> headed p l.
Proof.
  unfold begins, headed. rewrite str_eqb_spec. split.
  - intros E. exists (skipn (length (bytes p)) l). rewrite <- E at 1. symmetry. apply firstn_skipn.
  - intros (r & ->). rewrite firstn_app, Nat.sub_diag, firstn_O, app_nil_r. apply firstn_all.
Qed.
Lemma begins_not p l : begins (bytes p) l = false <-> ~ headed p l.
Proof. rewrite <- begins_iff. destruct (begins (bytes p) l); split; congruence. Qed.
Lemma among_iff names s : among (map AsStm_Model.lower s) (map bytes names) = true <-> is_type names s.
Proof.
  unfold among, is_type. rewrite existsb_exists. split.
  - intros (x & IX & E). apply in_map_iff in IX. destruct IX as (n & <- & IN). exists n. split; [exact IN|]. apply ignoring_iff. apply str_eqb_spec, E.
  - intros (n & IN & IG). exists (bytes n). split; [apply in_map, IN|]. apply str_eqb_spec. apply ignoring_iff, IG.
Qed.
Lemma kept_iff s : among (map AsStm_Model.lower s) KEPT = true <-> word_type s.
Proof. apply among_iff. Qed.
Lemma optional_iff s : among (map AsStm_Model.lower s) OPTIONAL = true <-> optional_type s.
Proof. apply among_iff. Qed.
Lemma headed_apart l : headed "SPEAKER" l -> headed "LEXEME" l -> False.
Proof. intros (r & ->) (r' & E). discriminate. Qed.
Lemma short_less n m ws : n <= m -> Forall short (firstn m ws) -> Forall short (firstn n ws).
Proof. intros L F. replace n with (Nat.min n m) by lia. rewrite <- firstn_firstn. apply Forall_forall. intros x Hx. rewrite Forall_forall in F. apply F. exact (firstn_In_list _ _ _ Hx). Qed.

(** The text of a word and its token *)
Definition chars (g : lexeme) : list ascii := map ascii_of_N (if among (map AsStm_Model.lower (g_type g)) OPTIONAL then [40%N] ++ g_word g ++ [41%N] else g_word g).
Lemma written_iff g s : written g s <-> s = chars g.
Proof.
  unfold written, chars. pose proof (optional_iff (g_type g)) as O. destruct (among _ OPTIONAL); split.
  - intros [(_ & H)|(H & _)]; [exact H|destruct H; apply O; reflexivity].
  - intros ->. left. split; [apply O; reflexivity|reflexivity].
  - intros [(H & _)|(_ & H)]; [apply O in H; discriminate|exact H].
  - intros ->. right. split; [intros H; apply O in H; discriminate|reflexivity].
Qed.
Section Numbers.
Variable ms : str -> Z.
Definition tok_of (g : lexeme) : atok := {| at_text := string_of_list_ascii (chars g); at_start := ms (g_b g); at_dur := ms (g_d g); at_opt := false |}.
Lemma source_tok g : source (tok_of g) = chars g.
Proof. unfold source. cbn [tok_of at_opt at_text]. apply list_ascii_of_string_of_list_ascii. Qed.

(** ** Turns and words of a longer file *)
Definition same (a b : str) : bool := if list_eq_dec N.eq_dec a b then true else false.
Fixpoint add_words (ws : list lexeme) (l : list (turn * list lexeme)) : list (turn * list lexeme) :=
  match l with [] => [] | [(q, w)] => [(q, w ++ ws)] | x :: r => x :: add_words ws r end.
Lemma words_until_app s a b : words_until s (a ++ b) = words_until s a ++ (match turns s a with [] => words_until s b | _ => [] end).
Proof.
  induction a as [|e a IH]; [reflexivity|]. cbn [app words_until turns]. destruct e as [q|g|].
  - destruct (list_eq_dec N.eq_dec (t_spkr q) s); [reflexivity|apply IH].
  - destruct (list_eq_dec N.eq_dec (g_spkr g) s); [cbn [app]; rewrite IH; reflexivity|apply IH].
  - apply IH.
Qed.
Lemma turns_app s a b : turns s (a ++ b) = add_words (words_until s b) (turns s a) ++ turns s b.
Proof.
  induction a as [|e a IH]; [reflexivity|]. cbn [app turns]. destruct e as [q|g|]; [|exact IH|exact IH].
  destruct (list_eq_dec N.eq_dec (t_spkr q) s); [|exact IH]. rewrite IH, words_until_app. destruct (turns s a) as [|x r]; cbn [add_words app]; [reflexivity|]. rewrite app_nil_r. reflexivity.
Qed.
Lemma add_words_snoc ws l q w : add_words ws (l ++ [(q, w)]) = l ++ [(q, w ++ ws)].
Proof. induction l as [|x l IH]; [reflexivity|]. cbn [app add_words]. rewrite IH. destruct x, l; reflexivity. Qed.
Lemma add_words_nil l : add_words [] l = l.
Proof. induction l as [|(q, w) l IH]; [reflexivity|]. cbn [add_words]. rewrite IH, app_nil_r. destruct l; reflexivity. Qed.
Definition after (b : list str) (x : list event) : list str := fold_left (fun b e => match e with ETurn q => t_spkr q :: b | _ => b end) x b.
Lemma said_app : forall x b y, said b (x ++ y) = said b x ++ said (after b x) y.
Proof.
  induction x as [|e x IH]; intros b y; [reflexivity|]. cbn [app said after fold_left]. destruct e as [q|g|]; [apply IH| |apply IH].
  destruct (in_dec (list_eq_dec N.eq_dec) (g_spkr g) b); [cbn [app]; rewrite IH; reflexivity|apply IH].
Qed.
Lemma after_iff : forall x b s, In s (after b x) <-> In s b \/ turns s x <> [].
Proof.
  induction x as [|e x IH]; intros b s; [cbn; tauto|]. cbn [after fold_left turns]. fold (after (match e with ETurn q => t_spkr q :: b | _ => b end) x). rewrite IH. destruct e as [q|g|]; [|reflexivity|reflexivity].
  destruct (list_eq_dec N.eq_dec (t_spkr q) s) as [E|NE].
  - split; [intros _; right; discriminate|intros _; left; left; exact E].
  - cbn [In]. tauto.
Qed.

(** ** Segments and their tokens *)
Definition last_error (c : list nat) : option nat := match rev c with [] => None | n :: _ => Some n end.
Definition fields (k : nat) (q : turn) (x : rseg) : Prop :=
  r_src x = t_src q /\ r_chan x = t_chan q /\ r_spkr x = t_spkr q /\ r_line x = t_line q /\ r_elem x = t_line q
  /\ sg_begin (r_seg x) = ms (t_b q) /\ sg_end (r_seg x) = (ms (t_b q) + ms (t_d q))%Z
  /\ (exists d, decimal3 (N.of_nat k mod 2 ^ 64) d /\ r_id x = [40%N] ++ t_spkr q ++ [45%N] ++ d ++ [41%N]).
Definition entry (toks : list atok) (k : nat) (y : turn * list lexeme) (x : rseg) (c : list nat) : Prop :=
  fields k (fst y) x /\ r_prev x = last_error c /\ sg_first (r_seg x) = firstn 1 c /\ sg_last (r_seg x) = [] /\ map (fun i => nth i toks no_tok) c = map tok_of (snd y).
(** Turns, segments and tokens side by side *)
Inductive each (E : nat -> turn * list lexeme -> rseg -> list nat -> Prop) : nat -> list (turn * list lexeme) -> list rseg -> list (list nat) -> Prop :=
| ea_nil : forall k, each E k [] [] []
| ea_cons : forall k y ys x xs c cs, E k y x c -> each E (S k) ys xs cs -> each E k (y :: ys) (x :: xs) (c :: cs).
Lemma each_len E k ys xs cs : each E k ys xs cs -> length ys = length xs /\ length cs = length xs.
Proof. induction 1 as [|k y ys x xs c cs _ _ (IH1 & IH2)]; [auto|]. cbn [length]. lia. Qed.
Lemma each_snoc E : forall k ys xs cs y x c, each E k ys xs cs -> E (k + length ys) y x c -> each E k (ys ++ [y]) (xs ++ [x]) (cs ++ [c]).
Proof.
  intros k ys xs cs y x c H. induction H as [k|k y1 ys x1 xs c1 cs H1 H IH]; intros K; cbn [app length] in *.
  - rewrite Nat.add_0_r in K. constructor; [exact K|constructor].
  - constructor; [exact H1|]. apply IH. replace (S k + length ys) with (k + S (length ys)) by lia. exact K.
Qed.
Lemma each_last E k ys xs cs : each E k ys xs cs -> ys <> [] ->
  exists ys0 y xs0 x cs0 c, ys = ys0 ++ [y] /\ xs = xs0 ++ [x] /\ cs = cs0 ++ [c] /\ each E k ys0 xs0 cs0 /\ E (k + length ys0) y x c.
Proof.
  induction 1 as [k|k y ys x xs c cs H1 H IH]; intros NE; [congruence|]. destruct ys as [|y2 ys].
  - inversion H; subst. exists [], y, [], x, [], c. repeat (split; [reflexivity|]). split; [constructor|]. cbn [length]. rewrite Nat.add_0_r. exact H1.
  - destruct IH as (ys0 & y' & xs0 & x' & cs0 & c' & -> & -> & -> & A & B); [discriminate|]. exists (y :: ys0), y', (x :: xs0), x', (c :: cs0), c'. repeat (split; [reflexivity|]). split; [constructor; assumption|]. cbn [length]. replace (k + S (length ys0)) with (S k + length ys0) by lia. exact B.
Qed.
Lemma each_impl (E E' : nat -> turn * list lexeme -> rseg -> list nat -> Prop) k ys xs cs : (forall k y x c, In c cs -> E k y x c -> E' k y x c) -> each E k ys xs cs -> each E' k ys xs cs.
Proof. intros HE H. induction H as [|k y ys x xs c cs H1 H IH]; constructor; [apply HE; [left; reflexivity|exact H1]|]. apply IH. intros; apply HE; [right; assumption|assumption]. Qed.

(** Places of a speaker's words *)
Definition pos (s : str) (own : list str) : list nat := filter (fun i => same (nth i own []) s) (seq 0 (length own)).
Lemma pos_snoc s own x : pos s (own ++ [x]) = pos s own ++ (if same x s then [length own] else []).
Proof.
  unfold pos. rewrite app_length. cbn [length]. rewrite seq_app, filter_app. cbn [seq Nat.add filter]. f_equal.
  - apply filter_ext_in. intros i Hi. apply in_seq in Hi. rewrite app_nth1 by lia. reflexivity.
  - rewrite app_nth2, Nat.sub_diag by lia. reflexivity.
Qed.
Lemma pos_in s own i : In i (pos s own) <-> i < length own /\ nth i own [] = s.
Proof. unfold pos. rewrite filter_In, in_seq. unfold same. destruct (list_eq_dec N.eq_dec (nth i own []) s); split; intros (A & B); split; try lia; try reflexivity; congruence. Qed.
Lemma same_refl s : same s s = true.
Proof. unfold same. destruct (list_eq_dec N.eq_dec s s); congruence. Qed.
Lemma same_str a b : same a b = str_eqb a b.
Proof. unfold same. destruct (list_eq_dec N.eq_dec a b) as [->|NE]; [symmetry; apply str_eqb_refl|symmetry; apply str_eqb_neq, NE]. Qed.
Lemma pos_sorted s own : StronglySorted lt (pos s own).
Proof.
  unfold pos. assert (K : forall n m, StronglySorted lt (filter (fun i => same (nth i own []) s) (seq m n))).
  { induction n as [|n IH]; intros m; [constructor|]. cbn [seq filter]. destruct (same (nth m own []) s); [|apply IH]. constructor; [apply IH|]. apply Forall_forall. intros x Hx. apply filter_In in Hx. destruct Hx as (Hx & _). apply in_seq in Hx. lia. }
  apply K.
Qed.

(** ** The reader's state *)
Definition consec (c : list nat) (x y : nat) : Prop := exists c1 c2, c = c1 ++ x :: y :: c2.
Definition conf_of (g : lexeme) : option str := if str_eqb (g_conf g) NA then None else Some (g_conf g).
Record yinv (pre : list event) (n : nat) (t : ystate) (css : str -> list (list nat)) : Prop := {
  y_n : y_line t = n;
  y_toks : ps_toks (y_ps t) = map tok_of (said [] pre);
  y_conf : y_confs t = map conf_of (said [] pre);
  y_keys : StronglySorted before (map fst (y_map t));
  y_names : forall s, In s (map fst (y_map t)) <-> turns s pre <> [];
  y_pos : forall s, concat (css s) = pos s (map g_spkr (said [] pre));
  y_each : forall s, each (entry (ps_toks (y_ps t))) 0 (turns s pre) (at_key s (y_map t)) (css s);
  y_mutual : mutual (ps_links (y_ps t));
  y_edges : forall x y, edge (ps_links (y_ps t)) x y <-> exists s c, In c (css s) /\ consec c x y }.
Lemma y_begin : yinv [] 0 first_y (fun _ => []).
Proof.
  split; try reflexivity.
  - constructor.
  - intros s. split; [intros []|intros K; destruct K; reflexivity].
  - intros s. constructor.
  - intros x y. split; intros [].
  - intros x y. split; [intros []|intros (s & c & [] & _)].
Qed.
Lemma consec_small (c : list nat) x y : consec c x y -> 2 <= length c.
Proof. intros (c1 & c2 & ->). rewrite app_length. cbn [length]. lia. Qed.
Lemma consec_snoc c n x y : consec (c ++ [n]) x y <-> consec c x y \/ (last_error c = Some x /\ y = n).
Proof.
  unfold consec, last_error. split.
  - intros (c1 & c2 & E). destruct (rev c2) as [|z r] eqn:R.
    + assert (c2 = []) by (rewrite <- (rev_involutive c2), R; reflexivity). subst c2. change (c1 ++ [x; y]) with (c1 ++ [x] ++ [y]) in E. rewrite app_assoc in E. apply app_inj_tail in E. destruct E as (-> & ->). right. rewrite rev_app_distr. auto.
    + assert (C2 : c2 = rev r ++ [z]) by (rewrite <- (rev_involutive c2), R; reflexivity). rewrite C2 in E. change (c1 ++ x :: y :: rev r ++ [z]) with (c1 ++ (x :: y :: rev r) ++ [z]) in E. rewrite app_assoc in E. apply app_inj_tail in E. destruct E as (-> & _). left. exists c1, (rev r). reflexivity.
  - intros [(c1 & c2 & ->)|(R & ->)].
    + exists c1, (c2 ++ [n]). rewrite <- app_assoc. reflexivity.
    + destruct (rev c) as [|z r] eqn:RC; [discriminate|]. injection R as ->. exists (rev r), []. rewrite <- (rev_involutive c), RC. cbn [rev]. rewrite <- app_assoc. reflexivity.
Qed.
Lemma entry_more toks new k y x c : (forall i, In i c -> i < length toks) -> entry toks k y x c -> entry (toks ++ new) k y x c.
Proof.
  intros L (A & B & C & D & E). split; [exact A|]. split; [exact B|]. split; [exact C|]. split; [exact D|]. rewrite <- E. apply map_ext_in. intros i Hi. apply app_nth1, L, Hi.
Qed.
Lemma set_last_snoc f l x : set_last f (l ++ [x]) = l ++ [f x].
Proof. induction l as [|a l IH]; [reflexivity|]. cbn [app set_last]. rewrite IH. destruct l; reflexivity. Qed.
Lemma change_keys s f m : map fst (change_at s f m) = map fst m.
Proof. induction m as [|(k, l) m IH]; [reflexivity|]. cbn [change_at map fst]. destruct (str_eqb k s); cbn [map fst]; [reflexivity|]. f_equal. exact IH. Qed.
Lemma change_at_key s f m j : f [] = [] -> at_key j (change_at s f m) = if same s j then f (at_key j m) else at_key j m.
Proof.
  intros F0. rewrite same_str. induction m as [|(k, l) m IH]; cbn [change_at at_key]; [rewrite F0; destruct (str_eqb s j); reflexivity|].
  destruct (str_eqb_dec k s) as [(-> & ->)|(NE & ->)]; cbn [at_key].
  - destruct (str_eqb s j); reflexivity.
  - destruct (str_eqb_dec k j) as [(-> & ->)|(NE2 & ->)]; [|exact IH]. rewrite (str_eqb_neq s j) by congruence. reflexivity.
Qed.
Definition put (css : str -> list (list nat)) (s : str) (v : list (list nat)) : str -> list (list nat) := fun j => if same s j then v else css j.

Lemma said_snoc pre e : said [] (pre ++ [e]) = said [] pre ++ match e with EWord g => match turns (g_spkr g) pre with [] => [] | _ => [g] end | _ => [] end.
Proof.
  rewrite said_app. f_equal. destruct e as [q|g|]; [reflexivity| |reflexivity]. cbn [said]. destruct (in_dec (list_eq_dec N.eq_dec) (g_spkr g) (after [] pre)) as [I|NI].
  - apply after_iff in I. destruct I as [[]|I]. destruct (turns (g_spkr g) pre); [congruence|reflexivity].
  - destruct (turns (g_spkr g) pre) eqn:ET; [reflexivity|]. destruct NI. apply after_iff. right. rewrite ET. discriminate.
Qed.
Lemma none_snoc s pre : turns s (pre ++ [ENone]) = turns s pre.
Proof. rewrite turns_app. cbn [words_until turns]. rewrite app_nil_r. apply add_words_nil. Qed.
Lemma skip_ok pre n t css : yinv pre n t css ->
  yinv (pre ++ [ENone]) (S n) {| y_ps := y_ps t; y_map := y_map t; y_line := S (y_line t); y_confs := y_confs t |} css.
Proof.
  intros IV. constructor; cbn [y_ps y_map y_line y_confs]; rewrite ?said_snoc, ?app_nil_r; try apply IV.
  - rewrite (y_n _ _ _ _ IV). reflexivity.
  - intros s. rewrite none_snoc. apply (y_names _ _ _ _ IV).
  - intros s. rewrite none_snoc. apply (y_each _ _ _ _ IV).
Qed.
Lemma turn_snoc s pre q : turns s (pre ++ [ETurn q]) = turns s pre ++ (if same (t_spkr q) s then [(q, [])] else []).
Proof. rewrite turns_app. cbn [words_until turns]. unfold same. destruct (list_eq_dec N.eq_dec (t_spkr q) s); rewrite add_words_nil; reflexivity. Qed.
Lemma word_snoc s pre g : turns s (pre ++ [EWord g]) = if same (g_spkr g) s then add_words [g] (turns s pre) else turns s pre.
Proof. rewrite turns_app. cbn [words_until turns]. rewrite app_nil_r. unfold same. destruct (list_eq_dec N.eq_dec (g_spkr g) s); [reflexivity|apply add_words_nil]. Qed.
Lemma dead_word_ok pre n t css g : yinv pre n t css -> turns (g_spkr g) pre = [] ->
  yinv (pre ++ [EWord g]) (S n) {| y_ps := y_ps t; y_map := y_map t; y_line := S (y_line t); y_confs := y_confs t |} css.
Proof.
  intros IV TN. assert (TS : forall s, turns s (pre ++ [EWord g]) = turns s pre). { intros s. rewrite word_snoc. unfold same. destruct (list_eq_dec N.eq_dec (g_spkr g) s) as [<-|]; [rewrite TN|]; reflexivity. }
  constructor; cbn [y_ps y_map y_line y_confs]; rewrite ?said_snoc, ?TN, ?app_nil_r; try apply IV.
  - rewrite (y_n _ _ _ _ IV). reflexivity.
  - intros s. rewrite TS. apply (y_names _ _ _ _ IV).
  - intros s. rewrite TS. apply (y_each _ _ _ _ IV).
Qed.
Lemma turn_ok pre n t css q x : yinv pre n t css -> fields (length (at_key (t_spkr q) (y_map t))) q x -> r_prev x = None -> sg_first (r_seg x) = [] -> sg_last (r_seg x) = [] ->
  yinv (pre ++ [ETurn q]) (S n) {| y_ps := y_ps t; y_map := add_to (t_spkr q) x (y_map t); y_line := S (y_line t); y_confs := y_confs t |} (put css (t_spkr q) (css (t_spkr q) ++ [[]])).
Proof.
  intros IV FX PX F0 L0. set (s := t_spkr q) in *. destruct (add_ok s x (y_map t) (y_keys _ _ _ _ IV)) as (AK & AT).
  constructor; cbn [y_ps y_map y_line y_confs]; rewrite ?said_snoc, ?app_nil_r.
  - rewrite (y_n _ _ _ _ IV). reflexivity.
  - apply IV.
  - apply IV.
  - exact AK.
  - intros j. rewrite add_keys, (y_names _ _ _ _ IV j), turn_snoc. fold s. unfold same. destruct (list_eq_dec N.eq_dec s j) as [->|NE].
    + split; [intros _ K; apply app_eq_nil in K; destruct K; discriminate|auto].
    + rewrite app_nil_r. split; [intros [K|K]; [congruence|exact K]|auto].
  - intros j. unfold put. destruct (same s j) eqn:E; [|apply IV]. assert (s = j) by (unfold same in E; destruct (list_eq_dec N.eq_dec s j); congruence). subst j. rewrite concat_app. cbn [concat]. rewrite !app_nil_r. apply IV.
  - intros j. rewrite AT, turn_snoc. fold s. unfold put. rewrite <- same_str. destruct (same s j) eqn:E; [|rewrite !app_nil_r; apply IV].
    assert (s = j) by (unfold same in E; destruct (list_eq_dec N.eq_dec s j); congruence). subst j. apply each_snoc; [apply IV|]. destruct (each_len _ _ _ _ _ (y_each _ _ _ _ IV s)) as (-> & _). split; [exact FX|]. split; [exact PX|]. split; [exact F0|]. split; [exact L0|reflexivity].
  - apply IV.
  - intros i j. rewrite (y_edges _ _ _ _ IV i j). split.
    + intros (u & c & IC & CC). exists u, c. split; [|exact CC]. unfold put. destruct (same s u) eqn:E; [|exact IC]. assert (s = u) by (unfold same in E; destruct (list_eq_dec N.eq_dec s u); congruence). subst u. apply in_app_iff. left. exact IC.
    + intros (u & c & IC & CC). unfold put in IC. destruct (same s u) eqn:E; [|exists u, c; auto]. apply in_app_iff in IC. destruct IC as [IC|[<-|[]]]; [|apply consec_small in CC; cbn in CC; lia]. exists s, c. auto.
Qed.
Lemma word_ok pre n t css g xs0 x s1 : yinv pre n t css -> at_key (g_spkr g) (y_map t) = xs0 ++ [x] ->
  let N := length (ps_toks (y_ps t)) in
  (match r_prev x with None => sg_first s1 = [N] /\ sg_first (r_seg x) = [] | Some _ => sg_first s1 = sg_first (r_seg x) end) -> sg_last s1 = sg_last (r_seg x) -> sg_begin s1 = sg_begin (r_seg x) -> sg_end s1 = sg_end (r_seg x) ->
  exists css', yinv (pre ++ [EWord g]) (S n)
    {| y_ps := {| ps_toks := ps_toks (y_ps t) ++ [tok_of g]; ps_links := match r_prev x with Some p => add_prec (add_next (ps_links (y_ps t)) p N) N p | None => ps_links (y_ps t) end |};
       y_map := change_at (g_spkr g) (set_last (fun _ => {| r_src := r_src x; r_chan := r_chan x; r_spkr := r_spkr x; r_line := r_line x; r_elem := r_elem x; r_id := r_id x; r_conf := r_conf x; r_prev := Some N; r_seg := s1 |})) (y_map t);
       y_line := S (y_line t); y_confs := y_confs t ++ [conf_of g] |} css'.
Proof.
  intros IV AK N SF SL SB SE. set (s := g_spkr g) in *. set (x' := {| r_src := r_src x; r_chan := r_chan x; r_spkr := r_spkr x; r_line := r_line x; r_elem := r_elem x; r_id := r_id x; r_conf := r_conf x; r_prev := Some N; r_seg := s1 |}).
  pose proof (y_each _ _ _ _ IV s) as EA. rewrite AK in EA. destruct (each_last _ _ _ _ _ EA) as (ys0 & (q, ws) & xs0' & x0 & cs0 & c & TE & XE & CE & EA0 & EN).
  { intros K. destruct (each_len _ _ _ _ _ EA) as (L & _). rewrite K, app_length in L. cbn in L. lia. }
  apply app_inj_tail in XE. destruct XE as (<- & <-). destruct EN as (FX & PX & F1 & L1 & TX). cbn [fst snd] in FX, TX.
  assert (LEN : length (said [] pre) = N) by (unfold N; rewrite (y_toks _ _ _ _ IV), map_length; reflexivity).
  assert (POSL : forall j c i, In c (css j) -> In i c -> i < N).
  { intros j d i ID II. assert (In i (concat (css j))) by (apply in_concat; eauto). rewrite (y_pos _ _ _ _ IV), pos_in, map_length, LEN in H. apply H. }
  assert (SAID : said [] (pre ++ [EWord g]) = said [] pre ++ [g]). { rewrite said_snoc. fold s. rewrite TE. destruct ys0; reflexivity. }
  assert (MORE : forall k y z d j, In d (css j) -> entry (ps_toks (y_ps t)) k y z d -> entry (ps_toks (y_ps t) ++ [tok_of g]) k y z d) by (intros k y z d j ID; apply entry_more; intros i; apply (POSL j d i ID)).
  exists (put css s (cs0 ++ [c ++ [N]])). constructor; cbn [y_ps y_map y_line y_confs ps_toks ps_links].
  - rewrite (y_n _ _ _ _ IV). reflexivity.
  - rewrite SAID, map_app, (y_toks _ _ _ _ IV). reflexivity.
  - rewrite SAID, map_app, (y_conf _ _ _ _ IV). reflexivity.
  - rewrite change_keys. apply IV.
  - intros j. rewrite change_keys, (y_names _ _ _ _ IV j), word_snoc. fold s. destruct (same s j) eqn:E; [|reflexivity]. assert (s = j) by (unfold same in E; destruct (list_eq_dec N.eq_dec s j); congruence). subst j. rewrite TE, add_words_snoc. split; intros _ K; apply app_eq_nil in K; destruct K; discriminate.
  - intros j. rewrite SAID, map_app. cbn [map]. fold s. rewrite pos_snoc, map_length, LEN. unfold put. destruct (same s j) eqn:E; [|rewrite app_nil_r; apply IV].
    assert (s = j) by (unfold same in E; destruct (list_eq_dec N.eq_dec s j); congruence). subst j. rewrite <- (y_pos _ _ _ _ IV), CE, !concat_app. cbn [concat]. rewrite !app_nil_r, app_assoc. reflexivity.
  - intros j. rewrite change_at_key by reflexivity. rewrite word_snoc. fold s. unfold put. destruct (same s j) eqn:E.
    + assert (s = j) by (unfold same in E; destruct (list_eq_dec N.eq_dec s j); congruence). subst j. rewrite AK, TE, add_words_snoc, set_last_snoc. apply each_snoc.
      * eapply each_impl; [|exact EA0]. intros k y z d ID. apply (MORE k y z d s). rewrite CE. apply in_app_iff. left. exact ID.
      * split; [destruct FX as (A1 & A2 & A3 & A4 & A5 & A6 & A7 & A8); unfold fields; cbn [fst x' r_src r_chan r_spkr r_line r_elem r_id r_seg]; rewrite SB, SE; auto 10|].
        cbn [x' r_prev r_seg snd]. split; [unfold last_error; rewrite rev_app_distr; reflexivity|]. split; [|split; [rewrite SL; exact L1|]].
        -- rewrite PX in SF. destruct c as [|c0 c]; [cbn in SF; apply SF|]. unfold last_error in SF. destruct (rev (c0 :: c)) eqn:RC; [apply (f_equal (@rev nat)) in RC; rewrite rev_involutive in RC; discriminate|]. rewrite SF, F1. reflexivity.
        -- rewrite !map_app. cbn [map]. f_equal; [rewrite <- TX; apply map_ext_in; intros i Hi; apply app_nth1; apply (POSL s c i); [rewrite CE; apply in_app_iff; right; left; reflexivity|exact Hi]|]. unfold N. rewrite app_nth2, Nat.sub_diag by lia. reflexivity.
    + eapply each_impl; [|apply IV]. intros k y z d ID. apply (MORE k y z d j ID).
  - destruct (r_prev x); [apply mutual_link2|]; apply IV.
  - assert (EDGE : forall i j, edge (match r_prev x with Some p => add_prec (add_next (ps_links (y_ps t)) p N) N p | None => ps_links (y_ps t) end) i j <-> edge (ps_links (y_ps t)) i j \/ (r_prev x = Some i /\ j = N)).
    { intros i j. destruct (r_prev x) as [p|]; [|split; [auto|intros [K|(K & _)]; [exact K|discriminate]]]. unfold edge, add_prec, add_next, upd. cbn [nxt]. destruct (Nat.eqb_spec i p) as [->|NE].
      - rewrite in_app_iff. cbn [In]. split; [intros [K|[K|[]]]; auto|intros [K|(_ & ->)]; auto].
      - split; [auto|intros [K|(K & _)]; [exact K|congruence]]. }
    intros i j. rewrite EDGE, (y_edges _ _ _ _ IV i j), PX. split.
    + intros [(u & d & ID & CC)|(LE & ->)].
      * exists u. unfold put. destruct (same s u) eqn:E; [|exists d; auto]. assert (s = u) by (unfold same in E; destruct (list_eq_dec N.eq_dec s u); congruence). subst u. rewrite CE in ID. apply in_app_iff in ID. destruct ID as [ID|[<-|[]]].
        -- exists d. split; [apply in_app_iff; left; exact ID|exact CC].
        -- exists (c ++ [N]). split; [apply in_app_iff; right; left; reflexivity|apply consec_snoc; left; exact CC].
      * exists s, (c ++ [N]). unfold put. rewrite same_refl. split; [apply in_app_iff; right; left; reflexivity|]. apply consec_snoc. right. auto.
    + intros (u & d & ID & CC). unfold put in ID. destruct (same s u) eqn:E; [|left; exists u, d; auto]. apply in_app_iff in ID. destruct ID as [ID|[<-|[]]].
      * left. exists s, d. split; [rewrite CE; apply in_app_iff; left; exact ID|exact CC].
      * apply consec_snoc in CC. destruct CC as [CC|CC]; [|right; exact CC]. left. exists s, c. split; [rewrite CE; apply in_app_iff; right; left; reflexivity|exact CC].
Qed.

(** ** One line *)
Lemma step_ok l e pre n t css : line_says n l e -> yinv pre n t css -> (forall s more, Forall (in_time ms) (turns s (pre ++ e :: more)) -> True) ->
  (match e with EWord g => forall ys q, turns (g_spkr g) pre = ys ++ [(q, [])] -> (ms (t_b q) <= ms (g_b g))%Z | _ => True end) ->
  exists t' css', spk_step ms l t = Ok t' /\ yinv (pre ++ [e]) (S n) t' css'.
Proof.
  intros LS IV _ TIME. unfold spk_step. cbv zeta. destruct LS as [ty src chan b d x y spkr more HD SP SH|ty src chan b d w k spkr conf more HD SP SH KE|a k more HD SP LA SH NK|NS NL].
  - destruct (begins (bytes ";;") l) eqn:B0; [apply begins_iff in B0; destruct HD as (r & ->); destruct B0 as (r' & K); discriminate|]. rewrite (proj2 (begins_iff "SPEAKER" l) HD).
    rewrite (pieces_spaced _ _ SP), (scan_ok 9 _ SH). cbn [app firstn rbind buf nth_error].
    set (q := {| t_line := n; t_src := src; t_chan := chan; t_b := b; t_d := d; t_spkr := spkr |}). eexists. exists (put css spkr (css spkr ++ [[]])). split; [reflexivity|].
    apply (turn_ok pre n t css q); [exact IV| |reflexivity|reflexivity|reflexivity]. unfold fields, q. cbn [t_src t_chan t_spkr t_line t_b t_d r_src r_chan r_spkr r_line r_elem r_seg r_id sg_begin sg_end]. rewrite (y_n _ _ _ _ IV). repeat (split; [reflexivity|]). apply (id_ok spkr _ 0). reflexivity.
  - destruct (begins (bytes ";;") l) eqn:B0; [apply begins_iff in B0; destruct HD as (r & ->); destruct B0 as (r' & K); discriminate|].
    destruct (begins (bytes "SPEAKER") l) eqn:B1; [apply begins_iff in B1; destruct (headed_apart l B1 HD)|]. rewrite (proj2 (begins_iff "LEXEME" l) HD).
    rewrite (pieces_spaced _ _ SP), (scan_ok 9 _ (short_less 9 10 _ ltac:(lia) SH)). cbn [app firstn rbind buf nth_error]. rewrite (proj2 (kept_iff k) KE).
    set (g := {| g_line := n; g_src := src; g_chan := chan; g_b := b; g_d := d; g_word := w; g_type := k; g_spkr := spkr; g_conf := conf |}) in *.
    destruct (rev (at_key spkr (y_map t))) as [|x r] eqn:RA.
    + eexists. exists css. split; [reflexivity|]. apply dead_word_ok; [exact IV|]. cbn [g_spkr g]. destruct (each_len _ _ _ _ _ (y_each _ _ _ _ IV spkr)) as (L & _). assert (AK : at_key spkr (y_map t) = []) by (rewrite <- (rev_involutive (at_key spkr (y_map t))), RA; reflexivity). rewrite AK in L. apply length_zero_iff_nil. exact L.
    + assert (AK : at_key (g_spkr g) (y_map t) = rev r ++ [x]) by (rewrite <- (rev_involutive (at_key _ _)); cbn [g_spkr g]; rewrite RA; reflexivity).
      change (string_of_list_ascii (map ascii_of_N (if among (map AsStm_Model.lower k) OPTIONAL then 40%N :: w ++ [41%N] else w))) with (string_of_list_ascii (chars g)).
      change {| at_text := string_of_list_ascii (chars g); at_start := ms b; at_dur := ms d; at_opt := false |} with (tok_of g). unfold add_token. cbn [ps_toks ps_links]. cbv zeta.
      assert (S1 : exists s1, match r_prev x with None => add_first (times_of (ps_toks (y_ps t) ++ [tok_of g])) (r_seg x) (length (ps_toks (y_ps t))) | Some _ => Ok (r_seg x) end = Ok s1
        /\ (match r_prev x with None => sg_first s1 = [length (ps_toks (y_ps t))] /\ sg_first (r_seg x) = [] | Some _ => sg_first s1 = sg_first (r_seg x) end) /\ sg_last s1 = sg_last (r_seg x) /\ sg_begin s1 = sg_begin (r_seg x) /\ sg_end s1 = sg_end (r_seg x)).
      { destruct (r_prev x) as [p|] eqn:PX; [exists (r_seg x); auto|].
        pose proof (y_each _ _ _ _ IV (g_spkr g)) as EA. rewrite AK in EA. destruct (each_last _ _ _ _ _ EA) as (ys0 & (q, ws) & xs0' & x0 & cs0 & c & TE & XE & CE & EA0 & EN).
        { intros K. destruct (each_len _ _ _ _ _ EA) as (L & _). rewrite K, app_length in L. cbn in L. lia. }
        apply app_inj_tail in XE. destruct XE as (_ & <-). destruct EN as (FX & PX' & F1 & L1 & TX). cbn [fst snd] in FX, TX. rewrite PX in PX'. assert (c = []). { unfold last_error in PX'. destruct (rev c) eqn:RC; [|discriminate]. rewrite <- (rev_involutive c), RC. reflexivity. } subst c.
        destruct ws as [|? ?]; [|discriminate]. specialize (TIME ys0 q TE). destruct FX as (_ & _ & _ & _ & _ & FB & _).
        unfold add_first. cbn [times_of tk_begin]. rewrite app_nth2, Nat.sub_diag by lia. cbn [nth tok_of at_start]. rewrite FB. destruct (Z.ltb_spec (ms (g_b g)) (ms (t_b q))); [lia|]. rewrite andb_false_r. eexists. split; [reflexivity|]. cbn [sg_first sg_last sg_begin sg_end]. rewrite F1. auto. }
      destruct S1 as (s1 & ES & SF & SL & SB & SE). rewrite ES. cbn [rbind].
      destruct (word_ok pre n t css g (rev r) x s1 IV AK SF SL SB SE) as (css' & IV'). eexists. exists css'. split; [reflexivity|exact IV'].
  - destruct (begins (bytes ";;") l) eqn:B0; [apply begins_iff in B0; destruct HD as (r & ->); destruct B0 as (r' & K); discriminate|].
    destruct (begins (bytes "SPEAKER") l) eqn:B1; [apply begins_iff in B1; destruct (headed_apart l B1 HD)|]. rewrite (proj2 (begins_iff "LEXEME" l) HD).
    rewrite (pieces_spaced _ _ SP), (scan_ok 9 _ (short_less 9 10 _ ltac:(lia) SH)). cbn [rbind]. unfold buf.
    do 6 (destruct a as [|? a]; [discriminate|]). destruct a; [|discriminate]. cbn [app firstn nth_error rbind].
    destruct (among (map AsStm_Model.lower k) KEPT) eqn:AM; [destruct NK; apply kept_iff, AM|]. eexists. exists css. split; [reflexivity|apply skip_ok, IV].
  - rewrite (proj2 (begins_not _ _) NS), (proj2 (begins_not _ _) NL). destruct (begins (bytes ";;") l); eexists; exists css; (split; [reflexivity|apply skip_ok, IV]).
Qed.
Lemma in_time_now pre g more ys q : (forall s, Forall (in_time ms) (turns s (pre ++ EWord g :: more))) -> turns (g_spkr g) pre = ys ++ [(q, [])] -> (ms (t_b q) <= ms (g_b g))%Z.
Proof.
  intros H E. specialize (H (g_spkr g)). rewrite turns_app, E, add_words_snoc in H. apply Forall_app in H. destruct H as (H & _). apply Forall_app in H. destruct H as (_ & H). inversion H as [|? ? K _]; subst. cbn [app words_until] in K. destruct (list_eq_dec N.eq_dec (g_spkr g) (g_spkr g)); [|congruence]. apply K.
Qed.
Lemma steps_ok : forall n ls es, lines_say n ls es -> forall pre t css, yinv pre n t css -> (forall s, Forall (in_time ms) (turns s (pre ++ es))) ->
  exists t' css' m, spk_steps ms ls t = Ok t' /\ yinv (pre ++ es) m t' css'.
Proof.
  induction 1 as [n|n l ls e es LS H IH]; intros pre t css IV TI.
  - exists t, css, n. rewrite app_nil_r. auto.
  - destruct (step_ok l e pre n t css LS IV) as (t1 & css1 & E1 & IV1); [auto|destruct e as [q|g|]; [exact I| |exact I]; intros ys q; apply (in_time_now pre g es ys q TI)|].
    cbn [spk_steps]. rewrite E1. cbn [rbind]. destruct (IH (pre ++ [e]) t1 css1 IV1) as (t' & css' & m & E2 & IV2); [intros s; rewrite <- app_assoc; apply TI|]. exists t', css', m. rewrite <- app_assoc in IV2. auto.
Qed.
End Numbers.
