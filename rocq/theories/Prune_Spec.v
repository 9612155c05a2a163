(** Which moves pruning removes, in words of the tokens concerned. *)
From Coq Require Import List ZArith Arith Bool.
From Verif Require Import Base Matrix_Model Graph_Model Graph_Spec.
Import ListNotations.
Local Open Scope Z_scope.

(** Both times of a token are known, from the token or from its segment. *)
Definition span_known (e : tok_env) (t : nat) : Prop := 0 <= span_begin e t /\ 0 <= span_end e t.

(** Word-time pruning: the two words have known times more than the threshold apart. *)
Definition pair_far (g : graph) (h r : nat) : Prop :=
  cf_word (g_cfg g) = true /\ span_known (g_env g) h /\ span_known (g_env g) r /\
  cf_word_thr (g_cfg g) < span_gap (g_env g) h r.

(** A word known only through the times of its segment. *)
Definition segment_timed (e : tok_env) (t : nat) : Prop :=
  te_start e t < 0 /\ te_end e t < 0 /\ 0 <= te_segstart e t /\ 0 <= te_segend e t.

(** Insertion/deletion pruning of word [t] of speech [i] in front of the current words [col]
    (one entry per speech): some other speech [k] has a current word that starts after [t]'s
    segment starts, more than the threshold away from it, and every other speech before [k]
    has a current word with known times. *)
Definition single_far (g : graph) (col : list (option nat)) (i t : nat) : Prop :=
  cf_prune (g_cfg g) = true /\ segment_timed (g_env g) t /\
  exists k u, k <> i /\ nth_error col k = Some (Some u) /\ span_known (g_env g) u /\
    te_segstart (g_env g) t < span_begin (g_env g) u /\
    cf_prune_thr (g_cfg g) <
      (if te_segend (g_env g) t <? span_begin (g_env g) u
       then span_begin (g_env g) u - te_segend (g_env g) t
       else if span_end (g_env g) u <? te_segstart (g_env g) t
       then te_segstart (g_env g) t - span_end (g_env g) u else 0) /\
    forall k', (k' < k)%nat -> k' <> i ->
      exists u', nth_error col k' = Some (Some u') /\ span_known (g_env g) u'.

(** The current words at a coordinate. *)
Definition current_words (g : graph) (cur : list nat) : list (option nat) :=
  map (tok_at g cur) (seq 0 (length (g_dims g))).

(** The same group with both prunings off. *)
Definition unpruned_cfg (c : config) : config :=
  {| cf_trans := cf_trans c; cf_ins := cf_ins c; cf_opt := cf_opt c; cf_nonspk := cf_nonspk c;
     cf_adapt := cf_adapt c; cf_opt_ref := cf_opt_ref c; cf_opt_hyp := cf_opt_hyp c;
     cf_prune := false; cf_prune_thr := cf_prune_thr c; cf_word := false;
     cf_word_thr := cf_word_thr c; cf_spk := cf_spk c; cf_adaptive := cf_adaptive c;
     cf_wordalign := cf_wordalign c; cf_maxdur := cf_maxdur c; cf_getref := cf_getref c |}.
Definition unpruned (g : graph) : graph :=
  {| g_env := g_env g; g_cfg := unpruned_cfg (g_cfg g); g_dims := g_dims g; g_ref := g_ref g |}.

(** The move from [cur] back to [p] is far: the one or two words it consumes are. *)
Definition far_move (g : graph) (cur p : list nat) : Prop :=
  (exists i t, changed cur p = [i] /\ tok_at g cur i = Some t /\
     single_far g (current_words g cur) i t) \/
  (exists i j h r, changed cur p = [i; j] /\ tok_at g cur i = Some h /\ tok_at g cur j = Some r /\
     pair_far g h r).

(** Total cost of going back to [q]: its stored cost plus the cost of the move. *)
Definition priced (g : graph) (m : array_matrix) (cur q : list nat) (w : Z) : Prop :=
  exists v tc, array_get m q = Some v /\ transition_cost g cur q = Ok tc /\ w = v + tc.
