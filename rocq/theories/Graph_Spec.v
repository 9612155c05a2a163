(** What an alignment of a segment group is and what it costs, without coordinates,
    matrices or search.  Only the record types of [Graph_Model] are used, except in [reached]. *)
From Coq Require Import List ZArith Arith Bool String.
From Verif Require Import Base Graph_Model.
Import ListNotations.

(** Consecutive tokens of a path are linked: each is a predecessor of the next. *)
Fixpoint linked (e : tok_env) (p : list nat) : Prop :=
  match p with
  | a :: ((b :: _) as rest) => In a (te_prec e b) /\ linked e rest
  | _ => True
  end.

(** A complete path of a speech: from a first token to a last token along links.  A speech
    with no last token has only the empty path. *)
Definition complete_path (e : tok_env) (d : dimension) (p : list nat) : Prop :=
  match p with
  | [] => d_last d = []
  | t0 :: _ =>
      In t0 (d_first d) /\ linked e p /\ In (List.last p t0) (d_last d)
      /\ (forall t, In t p -> In t (d_toks d))
  end.

(** A column has one entry per speech.  [entries] lists its tokens with their speech. *)
Fixpoint entries_from (i : nat) (col : list (option nat)) : list (nat * nat) :=
  match col with
  | [] => []
  | Some t :: rest => (i, t) :: entries_from (S i) rest
  | None :: rest => entries_from (S i) rest
  end.
Definition entries := entries_from 0.

(** With [nh] hypotheses placed before the references, a column holds one token, or one
    hypothesis token and one reference token. *)
Definition legal_column (n nh : nat) (col : list (option nat)) : Prop :=
  List.length col = n /\
  match entries col with
  | [_] => True
  | [(i, _); (j, _)] => i < nh /\ nh <= j
  | _ => False
  end.

(** The words of speech [i] in reading order. *)
Definition words_of (i : nat) (al : list (list (option nat))) : list nat :=
  flat_map (fun col => match nth_error col i with Some (Some t) => [t] | _ => [] end) al.

Definition is_alignment (g : graph) (al : list (list (option nat))) : Prop :=
  Forall (legal_column (List.length (g_dims g)) (g_ref g)) al /\
  forall i d, nth_error (g_dims g) i = Some d ->
    complete_path (g_env g) d (words_of i al).

(** Time span used for the adaptive cost: the token's own times, else its segment's. *)
Definition span_begin (e : tok_env) (t : nat) : Z :=
  if (te_start e t <? 0)%Z then te_segstart e t else te_start e t.
Definition span_end (e : tok_env) (t : nat) : Z :=
  if (te_end e t <? 0)%Z then te_segend e t else te_end e t.

(** Silence between two spans: 0 when they touch, overlap or are unknown. *)
Definition span_gap (e : tok_env) (a b : nat) : Z :=
  if ((0 <=? span_begin e a) && (0 <=? span_begin e b)
      && (0 <=? span_end e a) && (0 <=? span_end e b))%Z%bool
  then Z.max 0 (if (span_end e a <? span_begin e b)%Z
                then span_begin e b - span_end e a
                else span_begin e a - span_end e b)
  else 0%Z.

Definition adaptive_cost (e : tok_env) (c : config) (h r : nat) : Z :=
  if cf_adaptive c then Z.quot (cf_adapt c * span_gap e h r) (cf_maxdur c) else 0%Z.

(** Cost of aligning hypothesis token [h] with reference token [r]. *)
Definition pair_cost (e : tok_env) (c : config) (h r : nat) : Z :=
  (adaptive_cost e c h r +
   if te_equiv e h r
   then (if cf_spk c &&
            negb (String.eqb (cf_getref c (te_file e h) (te_chan e h) (te_spk e h)) (te_spk e r))
         then cf_nonspk c else 0)
   else cf_trans c + (if cf_wordalign c then te_edit e h r else 0))%Z.

(** Cost of a token left alone: optional words are cheaper when that option is on for
    their side. *)
Definition single_cost (e : tok_env) (c : config) (is_hyp : bool) (t : nat) : Z :=
  if (if is_hyp then cf_opt_hyp c else cf_opt_ref c) && te_optional e t
  then cf_opt c else cf_ins c.

Definition column_cost (g : graph) (col : list (option nat)) : Z :=
  match entries col with
  | [(i, t)] => single_cost (g_env g) (g_cfg g) (i <? g_ref g)%nat t
  | [(_, h); (_, r)] => pair_cost (g_env g) (g_cfg g) h r
  | _ => 0%Z
  end.

Fixpoint alignment_cost (g : graph) (al : list (list (option nat))) : Z :=
  match al with
  | [] => 0%Z
  | col :: rest => (column_cost g col + alignment_cost g rest)%Z
  end.

(** Well-formed speeches. *)
Definition wf_dim (e : tok_env) (d : dimension) : Prop :=
  (forall t, In t (d_first d) -> In t (d_toks d)) /\
  (forall t, In t (d_last d) -> In t (d_toks d)) /\
  (d_toks d <> [] -> d_first d <> []) /\
  (* a first token with a predecessor inside the speech (an optional beginning) is not the
     only first token *)
  (forall t p, In t (d_first d) -> In p (te_prec e t) -> In p (d_toks d) ->
     exists f, In f (d_first d) /\ f <> t) /\
  (* any other token has predecessors, all of them inside the speech *)
  (forall t, In t (d_toks d) -> ~ In t (d_first d) ->
     te_prec e t <> [] /\ forall p, In p (te_prec e t) -> In p (d_toks d)).

Definition acyclic (g : graph) : Prop :=
  exists rank : nat -> nat, forall d t p,
    In d (g_dims g) -> In t (d_toks d) -> In p (d_toks d) -> In p (te_prec (g_env g) t) ->
    rank p < rank t.

Definition nonneg_costs (g : graph) : Prop :=
  let c := g_cfg g in
  (0 <= cf_trans c /\ 0 <= cf_ins c /\ 0 <= cf_opt c /\ 0 <= cf_nonspk c /\ 0 <= cf_adapt c
   /\ 0 < cf_maxdur c /\ forall a b, 0 <= te_edit (g_env g) a b)%Z.

(** With speaker optimisation on, all tokens of a group come from one file and channel. *)
Definition same_recording (g : graph) : Prop :=
  cf_spk (g_cfg g) = true ->
  forall d1 d2 t1 t2, In d1 (g_dims g) -> In d2 (g_dims g) ->
    In t1 (d_toks d1) -> In t2 (d_toks d2) ->
    te_file (g_env g) t1 = te_file (g_env g) t2 /\ te_chan (g_env g) t1 = te_chan (g_env g) t2.

Definition wf_graph (g : graph) : Prop :=
  (forall d, In d (g_dims g) -> wf_dim (g_env g) d) /\
  acyclic g /\ nonneg_costs g /\ same_recording g /\
  g_ref g <= List.length (g_dims g).

Definition no_pruning (g : graph) : Prop :=
  cf_prune (g_cfg g) = false /\ cf_word (g_cfg g) = false.

(** A speech without alternations: a single chain of tokens. *)
Definition linear_speech (e : tok_env) (d : dimension) : Prop :=
  match d_toks d with
  | [] => True
  | t0 :: _ =>
      NoDup (d_toks d) /\ d_first d = [t0] /\ d_last d = [List.last (d_toks d) t0] /\
      forall i t u, nth_error (d_toks d) i = Some t -> nth_error (d_toks d) (S i) = Some u ->
        te_prec e u = [t]
  end.

(** The coordinates the search visits: the starting ones and, repeatedly, the predecessors it
    enumerates. *)
Inductive reached (g : graph) : list nat -> Prop :=
| reached_start : forall c, In c (starting_coordinates g) -> reached g c
| reached_prev : forall c l p, reached g c -> previous_coordinates g c = Ok l -> In p l ->
    reached g p.
