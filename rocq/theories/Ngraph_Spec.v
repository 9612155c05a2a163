(** What an n-way alignment is and what the n-way and the time-based cost models charge,
    without coordinates, matrices or search. *)
From Coq Require Import List ZArith Arith Bool String Ascii.
From Verif Require Import Base Graph_Model Graph_Spec Token_Model Token_Spec.
Import ListNotations.

(** The tokens of a column, by speech. *)
Definition tokens_of (col : list (option nat)) : list nat := map snd (entries col).

(** An n-way column has one place per speech and holds at least one token; the speeches are
    not told apart. *)
Definition nway_column (n : nat) (col : list (option nat)) : Prop :=
  List.length col = n /\ tokens_of col <> [].

Definition nway_alignment (g : graph) (al : list (list (option nat))) : Prop :=
  Forall (nway_column (List.length (g_dims g))) al /\
  forall i d, nth_error (g_dims g) i = Some d -> complete_path (g_env g) d (words_of i al).

(** How many tokens of a column say the same: the size of the largest set of tokens
    equivalent to one of them. *)
Definition agreeing (e : tok_env) (ts : list nat) : nat :=
  fold_right Nat.max 0 (map (fun t => List.length (filter (te_equiv e t) ts)) ts).

(** N-way word cost: every speech without a token pays an insertion (the optional price when
    the column's last token is optional), every token outside the largest agreement pays a
    substitution. *)
Definition nway_word_cost (g : graph) (col : list (option nat)) : Z :=
  let ts := tokens_of col in
  let c := g_cfg g in
  ((if te_optional (g_env g) (List.last ts 0%nat) then cf_opt c else cf_ins c)
     * (Z.of_nat (List.length (g_dims g)) - Z.of_nat (List.length ts))
   + cf_trans c * (Z.of_nat (List.length ts) - Z.of_nat (agreeing (g_env g) ts)))%Z.

(** Time span of a column. *)
Definition col_begin (e : tok_env) (ts : list nat) : Z :=
  match ts with [] => 0%Z | t :: r => fold_left (fun m u => Z.min m (te_start e u)) r (te_start e t) end.
Definition col_end (e : tok_env) (ts : list nat) : Z :=
  match ts with [] => 0%Z | t :: r => fold_left (fun m u => Z.max m (te_end e u)) r (te_end e t) end.

(** N-way time cost, before the division: every speech without a token pays the column's span;
    of the tokens, only the last one's missing time is charged. *)
Definition nway_time (g : graph) (col : list (option nat)) : Z :=
  let ts := tokens_of col in
  let e := g_env g in let c := g_cfg g in
  let span := (col_end e ts - col_begin e ts)%Z in
  let t := List.last ts 0%nat in
  ((if te_optional e t then cf_opt c else cf_ins c)
     * (span * (Z.of_nat (List.length (g_dims g)) - Z.of_nat (List.length ts)))
   + cf_trans c * (span - (te_end e t - te_start e t)))%Z.

(** The reading in which every token of a column pays its missing time. *)
Definition nway_time_all (g : graph) (col : list (option nat)) : Z :=
  let ts := tokens_of col in
  let e := g_env g in let c := g_cfg g in
  let span := (col_end e ts - col_begin e ts)%Z in
  ((if te_optional e (List.last ts 0%nat) then cf_opt c else cf_ins c)
     * (span * (Z.of_nat (List.length (g_dims g)) - Z.of_nat (List.length ts)))
   + cf_trans c * fold_right (fun t x => (span - (te_end e t - te_start e t) + x)%Z) 0%Z ts)%Z.

(** Time cost of a hypothesis/reference column, before the division: a lone token pays its
    duration, a pair the distance between their times, and more if the speakers do not match. *)
Definition time_pair_cost (up : string -> string) (g : graph) (h r : nat) : Z :=
  let e := g_env g in let c := g_cfg g in
  (cf_trans c * (Z.abs (te_start e h - te_start e r) + Z.abs (te_end e h - te_end e r))
   + if cf_spk c &&
        negb (String.eqb (cf_getref c (te_file e h) (te_chan e h) (up (te_spk e h))) (up (te_spk e r)))
     then cf_nonspk c else 0)%Z.

Definition column_time (up : string -> string) (g : graph) (col : list (option nat)) : Z :=
  match entries col with
  | [(i, t)] =>
      (single_cost (g_env g) (g_cfg g) (i <? g_ref g)%nat t
       * (te_end (g_env g) t - te_start (g_env g) t))%Z
  | [(_, h); (_, r)] => time_pair_cost up g h r
  | _ => 0%Z
  end.

(** The costs the program adds up are divided by [dv], column by column. *)
Definition divided (dv : Z) (cost : list (option nat) -> Z) (col : list (option nat)) : Z :=
  Z.quot (cost col) dv.

Definition total (cost : list (option nat) -> Z) (al : list (list (option nat))) : Z :=
  fold_right (fun col x => (cost col + x)%Z) 0%Z al.

(** ** When the claims apply *)

(** Well-formed speeches and non-negative prices: all the n-way search needs. *)
Definition wf_nway (g : graph) : Prop :=
  (forall d, In d (g_dims g) -> wf_dim (g_env g) d) /\ acyclic g /\
  (0 <= cf_trans (g_cfg g) /\ 0 <= cf_ins (g_cfg g) /\ 0 <= cf_opt (g_cfg g))%Z.

(** Saying the same is an equivalence (it is unless fragments count as correct). *)
Definition agreement (e : tok_env) : Prop :=
  (forall t, te_equiv e t t = true) /\
  (forall t u, te_equiv e t u = te_equiv e u t) /\
  (forall t u v, te_equiv e t u = true -> te_equiv e u v = true -> te_equiv e t v = true).

(** Every token has its times, and lasts. *)
Definition timed_tokens (g : graph) : Prop :=
  forall d t, In d (g_dims g) -> In t (d_toks d) ->
    (0 <= te_start (g_env g) t <= te_end (g_env g) t)%Z.

(** The divisor of time costs: the smallest price times the smallest, over the tokens, of the
    largest power of ten that divides both times of a token. *)
Definition time_unit (g : graph) (dv : Z) : Prop :=
  exists t p,
    In t (flat_map d_toks (g_dims g)) /\
    largest_common_power (te_start (g_env g) t) (te_end (g_env g) t) p /\
    (forall u q, In u (flat_map d_toks (g_dims g)) ->
       largest_common_power (te_start (g_env g) u) (te_end (g_env g) u) q -> (p <= q)%Z) /\
    dv = (Z.min (Z.min (Z.min (cf_trans (g_cfg g)) (cf_ins (g_cfg g))) (cf_opt (g_cfg g)))
                (cf_nonspk (g_cfg g)) * p)%Z.

(** No token has both times divisible by a thousand million (milliseconds). *)
Definition ordinary_times (g : graph) : Prop :=
  forall t, In t (flat_map d_toks (g_dims g)) ->
    ~ ((10 ^ 9 | te_start (g_env g) t)%Z /\ (10 ^ 9 | te_end (g_env g) t)%Z).

(** Positive prices, as the program sets them (levenshtein.cpp:86). *)
Definition positive_prices (g : graph) : Prop :=
  (0 < cf_trans (g_cfg g) /\ 0 < cf_ins (g_cfg g) /\ 0 < cf_opt (g_cfg g) /\ 0 < cf_nonspk (g_cfg g))%Z.

(** Prices of which the smallest divides the others, as in the program (400, 300, 200, 100). *)
Definition whole_prices (g : graph) : Prop :=
  let c := g_cfg g in
  let m := Z.min (Z.min (Z.min (cf_trans c) (cf_ins c)) (cf_opt c)) (cf_nonspk c) in
  ((m | cf_trans c) /\ (m | cf_ins c) /\ (m | cf_opt c))%Z.

(** ** Optional tokens *)

(** What the help text (main.cpp:54-59) says of [-D]: on which side a lone optional token pays the
    optional price. *)
Definition side_wanted (v : string) (is_hyp : bool) : bool :=
  if String.eqb v "both" then true
  else if String.eqb v "hyp" then is_hyp
  else if String.eqb v "ref" then negb is_hyp
  else false.
