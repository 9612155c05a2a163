(** Model of asclite's multi-dimensional alignment graph (graph.cpp), hypothesis/reference
    mode, word-based cost model. *)
From Coq Require Import List ZArith Arith Bool String.
From Verif Require Import Base Matrix_Model.
Import ListNotations.
Open Scope res_scope.

(** Tokens are identifiers; the environment gives what the code reads through the
    [Token*] (token.h, segment.h).  Text comparison and edit distance are left abstract
    here (they are modelled in [Token_Model]), so everything below holds for any. *)
Record tok_env := {
  te_prec : nat -> list nat;         (* Token::GetPrecToken(j), token.h *)
  te_optional : nat -> bool;         (* Token::IsOptional, token.cpp:233 *)
  te_equiv : nat -> nat -> bool;     (* Token::IsEquivalentTo, token.cpp:252 *)
  te_edit : nat -> nat -> Z;         (* Token::EditDistance, token.cpp:335 *)
  te_start : nat -> Z;               (* GetStartTime, -1 when unknown *)
  te_end : nat -> Z;                 (* GetEndTime *)
  te_segstart : nat -> Z;            (* GetParentSegment()->GetStartTime() *)
  te_segend : nat -> Z;              (* GetParentSegment()->GetEndTime() *)
  te_file : nat -> string;           (* GetParentSegment()->GetSource() *)
  te_chan : nat -> string;           (* GetParentSegment()->GetChannel() *)
  te_spk : nat -> string             (* GetParentSegment()->GetSpeakerId() *)
}.

(** One dimension of the graph (graph.cpp:63-67): the flattened tokens without the two
    NULL sentinels, [m_TabFirstTokens] and [m_TabLastTokens]. *)
Record dimension := {
  d_toks : list nat;
  d_first : list nat;
  d_last : list nat
}.

(** Options and costs of a graph (graph.cpp:31-41, 1305-1318; graph.h:49-111). *)
Record config := {
  cf_trans : Z;             (* m_CostTransition *)
  cf_ins : Z;               (* m_CostInsertion *)
  cf_opt : Z;               (* m_CostOptionally *)
  cf_nonspk : Z;            (* m_CostCorrectNonSpeaker *)
  cf_adapt : Z;             (* m_CostAdaptive *)
  cf_opt_ref : bool;        (* m_useOptForRef *)
  cf_opt_hyp : bool;        (* m_useOptForHyp *)
  cf_prune : bool;          (* m_bPruneOptimization *)
  cf_prune_thr : Z;
  cf_word : bool;           (* m_bWordOptimization *)
  cf_word_thr : Z;
  cf_spk : bool;            (* m_bSpeakerOptimization *)
  cf_adaptive : bool;       (* m_bAdaptiveCostOptimization *)
  cf_wordalign : bool;      (* m_bWordAlignCostOptimization *)
  cf_maxdur : Z;            (* m_MaxDurationSegmentGroup *)
  cf_getref : string -> string -> string -> string  (* SpeakerMatch::GetRef *)
}.

(** The graph: environment, options, dimensions (hypotheses first), and [m_IndexRef]. *)
Record graph := {
  g_env : tok_env;
  g_cfg : config;
  g_dims : list dimension;
  g_ref : nat
}.

(** graph.cpp:89,206: [m_TabDimensionDeep] (tokens plus two NULL sentinels). *)
Definition deep (d : dimension) : nat := List.length (d_toks d) + 2.

(** graph.cpp:78,83 [m_TabVecHypRef[dim][k]]: outer [None] is an out-of-range access,
    inner [None] is the NULL token. *)
Definition vec_at (d : dimension) (k : nat) : option (option nat) :=
  nth_error (None :: map Some (d_toks d) ++ [None]) k.

(** graph.cpp:105 [m_TabMapTokenIndex[i][curToken] = k] (a later occurrence overwrites an
    earlier one), read through [operator[]] which yields 0 for an absent token. *)
Fixpoint token_index_from (k dflt : nat) (t : nat) (l : list nat) : nat :=
  match l with
  | [] => dflt
  | x :: r => token_index_from (S k) (if Nat.eqb x t then k else dflt) t r
  end.
Definition token_index (d : dimension) (t : nat) : nat := token_index_from 1 0 t (d_toks d).

Fixpoint mem (t : nat) (l : list nat) : bool :=
  match l with
  | [] => false
  | x :: r => if Nat.eqb x t then true else mem t r
  end.

(** graph.cpp:449-484, the scan of [m_TabFirstTokens]; [acc] is the cached list being
    built with [push_front]. *)
Fixpoint prev_scan (e : tok_env) (d : dimension) (t : nat) (firsts : list nat)
         (is0added : bool) (acc : list nat) : list nat :=
  match firsts with
  | [] => acc
  | f :: rest =>
      if Nat.eqb f t && negb is0added
      then prev_scan e d t rest true (0 :: acc)
      else
        match te_prec e t with
        | [] => prev_scan e d t rest is0added (0 :: acc)
        | ps => prev_scan e d t rest is0added
                  (fold_left (fun a p => token_index d p :: a) ps acc)
        end
  end.

(** graph.cpp:402-487 [PreviousIndexes].  Simplification: the cache
    [m_TabCacheDimPreviousIndex] only remembers this value and is not modelled.  The list
    of last tokens never contains NULL (graph.cpp:95,119-120), so [is0added] plays no role
    in the first branch. *)
Definition previous_indexes (e : tok_env) (d : dimension) (index : nat) : res (list nat) :=
  if Nat.eqb index 0 then Ok [0]
  else if Nat.eqb index (deep d - 1)
  then Ok (fold_left (fun a t => token_index d t :: a) (d_last d) [])
  else match vec_at d index with
       | Some (Some t) => Ok (prev_scan e d t (d_first d) false [])
       | _ => Undef
       end.

(** graph.cpp:359-366 [isEndingCoordinate]. *)
Definition is_ending (c : list nat) : bool := forallb (fun x => Nat.eqb x 0) c.

(** Token at the current coordinate of dimension [i] (m_TabVecHypRef[i][coord[i]]);
    [None] for NULL or out of range. *)
Definition tok_at (g : graph) (c : list nat) (i : nat) : option nat :=
  match nth_error (g_dims g) i, nth_error c i with
  | Some d, Some k => match vec_at d k with Some (Some t) => Some t | _ => None end
  | _, _ => None
  end.

(** The dimensions on which two coordinates differ, in increasing order
    (graph.cpp:679-697, 1076-1087, 1199-1211). *)
Fixpoint changed_from (i : nat) (a b : list nat) : list nat :=
  match a, b with
  | x :: a', y :: b' =>
      if Nat.eqb x y then changed_from (S i) a' b' else i :: changed_from (S i) a' b'
  | _, _ => []
  end.
Definition changed (a b : list nat) : list nat := changed_from 0 a b.

Section Validate.
Variable g : graph.
Let e := g_env g.
Let cfg := g_cfg g.

(** Begin/end time of a token, falling back on its segment (graph.cpp:1149-1157,
    1159-1167, 1213-1231). *)
Definition begin_of (t : nat) : Z :=
  if (te_start e t <? 0)%Z then te_segstart e t else te_start e t.
Definition end_of (t : nat) : Z :=
  if (te_end e t <? 0)%Z then te_segend e t else te_end e t.

(** graph.cpp:1141-1191, the loop over the unchanged dimensions. *)
Fixpoint prune_loop (chgdim : nat) (cb ce : Z) (i : nat) (toks : list (option nat)) : bool :=
  match toks with
  | [] => true
  | ot :: rest =>
      if Nat.eqb i chgdim then prune_loop chgdim cb ce (S i) rest
      else match ot with
           | None => true
           | Some t =>
               if (begin_of t <? 0)%Z then true
               else if (end_of t <? 0)%Z then true
               else if (cb <? begin_of t)%Z
                    then
                      let gap :=
                        if (ce <? begin_of t)%Z then (begin_of t - ce)%Z
                        else if (end_of t <? cb)%Z then (cb - end_of t)%Z
                        else 0%Z in
                      if (cf_prune_thr cfg <? gap)%Z then false
                      else prune_loop chgdim cb ce (S i) rest
                    else prune_loop chgdim cb ce (S i) rest
           end
  end.

(** graph.cpp:1089-1255 [ValidateTransitionInsertionDeletion].  The two tokens of the
    two-change branch are dereferenced: a NULL there is undefined behaviour. *)
Definition validate (cur prev : list nat) : res bool :=
  if negb (cf_prune cfg) && negb (cf_word cfg) then Ok true
  else
    match changed cur prev with
    | [chg] =>
        if cf_prune cfg then
          match tok_at g cur chg with
          | None => Ok true
          | Some t =>
              if negb (te_start e t <? 0)%Z then Ok true
              else if (te_segstart e t <? 0)%Z then Ok true
              else if negb (te_end e t <? 0)%Z then Ok true
              else if (te_segend e t <? 0)%Z then Ok true
              else Ok (prune_loop chg (te_segstart e t) (te_segend e t) 0
                         (map (tok_at g cur) (seq 0 (List.length (g_dims g)))))
          end
        else Ok true
    | [c1; c2] =>
        if cf_word cfg then
          match tok_at g cur c1, tok_at g cur c2 with
          | Some t1, Some t2 =>
              let s1 := begin_of t1 in let s2 := begin_of t2 in
              let e1 := end_of t1 in let e2 := end_of t2 in
              if ((s1 <? 0) || (s2 <? 0) || (e1 <? 0) || (e2 <? 0))%Z%bool then Ok true
              else
                let gap := if (e1 <? s2)%Z then (s2 - e1)%Z
                           else if (e2 <? s1)%Z then (s1 - e2)%Z else 0%Z in
                Ok (gap <=? cf_word_thr cfg)%Z
          | _, _ => Undef
          end
        else Ok true
    | _ => Ok true
    end.

(** [if(Validate...) listPrev.AddFront(p)] (graph.cpp:521-522, 538-539, 566-567). *)
Definition add_if_valid (cur p : list nat) (acc : list (list nat)) : res (list (list nat)) :=
  let* ok := validate cur p in Ok (if ok then p :: acc else acc).

(** graph.cpp:524-544, the inner loops moving one hypothesis as well. *)
Fixpoint add_hyp_moves (cur pr : list nat) (j : nat) (ms : list nat)
         (acc : list (list nat)) : res (list (list nat)) :=
  match ms with
  | [] => Ok acc
  | m :: rest =>
      let* acc' := add_if_valid cur (update pr j m) acc in
      add_hyp_moves cur pr j rest acc'
  end.

Fixpoint over_hyps (cur pr : list nat) (prevs : list (list nat)) (js : list nat)
         (acc : list (list nat)) : res (list (list nat)) :=
  match js with
  | [] => Ok acc
  | j :: rest =>
      let* acc' :=
        (match nth_error cur j with
         | Some 0 => Ok acc
         | _ => add_hyp_moves cur pr j (nth j prevs []) acc
         end) in
      over_hyps cur pr prevs rest acc'
  end.

(** graph.cpp:511-547, one reference moves (alone, then with each hypothesis). *)
Fixpoint add_ref_moves (cur : list nat) (prevs : list (list nat)) (i : nat) (ls : list nat)
         (acc : list (list nat)) : res (list (list nat)) :=
  match ls with
  | [] => Ok acc
  | l :: rest =>
      let pr := update cur i l in
      let* acc1 := add_if_valid cur pr acc in
      let* acc2 := over_hyps cur pr prevs (seq 0 (g_ref g)) acc1 in
      add_ref_moves cur prevs i rest acc2
  end.

(** graph.cpp:506-549. *)
Fixpoint over_refs (cur : list nat) (prevs : list (list nat)) (is : list nat)
         (acc : list (list nat)) : res (list (list nat)) :=
  match is with
  | [] => Ok acc
  | i :: rest =>
      let* acc' :=
        (match nth_error cur i with
         | Some 0 => Ok acc
         | _ => add_ref_moves cur prevs i (nth i prevs []) acc
         end) in
      over_refs cur prevs rest acc'
  end.

(** graph.cpp:551-574, one hypothesis moves alone. *)
Fixpoint over_single_hyps (cur : list nat) (prevs : list (list nat)) (js : list nat)
         (acc : list (list nat)) : res (list (list nat)) :=
  match js with
  | [] => Ok acc
  | j :: rest =>
      let* acc' :=
        (match nth_error cur j with
         | Some 0 => Ok acc
         | _ => add_hyp_moves cur cur j (nth j prevs []) acc
         end) in
      over_single_hyps cur prevs rest acc'
  end.

(** graph.cpp:502-504: the previous indexes of every non-zero coordinate. *)
Fixpoint all_previous (ds : list dimension) (c : list nat) : res (list (list nat)) :=
  match ds, c with
  | d :: ds', k :: c' =>
      let* p := (if Nat.eqb k 0 then Ok [] else previous_indexes e d k) in
      let* rest := all_previous ds' c' in
      Ok (p :: rest)
  | [], _ => Ok []
  | _, [] => Undef
  end.

(** graph.cpp:490-585 [PreviousCoordinatesHypRef]; the list is in iteration order, i.e.
    the reverse of the order of the [AddFront] calls. *)
Definition previous_coordinates (cur : list nat) : res (list (list nat)) :=
  if is_ending cur then Ok []
  else
    let n := List.length (g_dims g) in
    let* prevs := all_previous (g_dims g) cur in
    let* a := over_refs cur prevs (seq (g_ref g) (n - g_ref g)) [] in
    over_single_hyps cur prevs (seq 0 (g_ref g)) a.

(** graph.cpp:1257-1295 [GetCostAdaptive]. *)
Definition cost_adaptive (t1 t2 : nat) : res Z :=
  if negb (cf_adaptive cfg) then Ok 0%Z
  else
    let s1 := begin_of t1 in let s2 := begin_of t2 in
    let e1 := end_of t1 in let e2 := end_of t2 in
    if ((s1 <? 0) || (s2 <? 0) || (e1 <? 0) || (e2 <? 0))%Z%bool then Ok 0%Z
    else if (e1 <? s2)%Z then
           (if (cf_maxdur cfg =? 0)%Z then Undef
            else Ok (Z.quot (cf_adapt cfg * (s2 - e1)) (cf_maxdur cfg)))
    else if (e2 <? s1)%Z then
           (if (cf_maxdur cfg =? 0)%Z then Undef
            else Ok (Z.quot (cf_adapt cfg * (s1 - e2)) (cf_maxdur cfg)))
    else Ok 0%Z.

(** graph.cpp:1297-1303 [GetCostWordAlign]. *)
Definition cost_word_align (t1 t2 : nat) : Z :=
  if cf_wordalign cfg then te_edit e t1 t2 else 0%Z.

(** graph.cpp:714-752 [GetCostTransitionWordBased]; [Exit] on a file or channel mismatch. *)
Definition cost_pair (t1 t2 : nat) : res Z :=
  let* ad := cost_adaptive t1 t2 in
  if negb (te_equiv e t1 t2)
  then Ok (cf_trans cfg + ad + cost_word_align t1 t2)%Z
  else if negb (cf_spk cfg) then Ok ad
  else if negb (String.eqb (te_file e t1) (te_file e t2))
          || negb (String.eqb (te_chan e t1) (te_chan e t2)) then Exit
  else if String.eqb (cf_getref cfg (te_file e t1) (te_chan e t1) (te_spk e t1)) (te_spk e t2)
       then Ok ad
       else Ok (cf_nonspk cfg + ad)%Z.

(** graph.h:153 [GetCostInsertion]. *)
Definition cost_insertion (optionally : bool) : Z :=
  if optionally then cf_opt cfg else cf_ins cfg.

(** graph.cpp:669-711 [GetTransitionCostHypRefWordBased]; dereferencing NULL is [Undef]. *)
Definition transition_cost (cur prev : list nat) : res Z :=
  match changed cur prev with
  | [] => Undef
  | [i] =>
      if (Nat.ltb i (g_ref g) && cf_opt_hyp cfg) || (negb (Nat.ltb i (g_ref g)) && cf_opt_ref cfg)
      then match tok_at g cur i with
           | Some t => Ok (cost_insertion (te_optional e t))
           | None => Undef
           end
      else Ok (cost_insertion false)
  | i :: j :: _ =>
      match tok_at g cur i, tok_at g cur j with
      | Some t1, Some t2 => cost_pair t1 t2
      | _, _ => Undef
      end
  end.

End Validate.

(** graph.cpp:290-356 [StartingCoordinates]: all combinations of last tokens (0 for an
    empty dimension).  Simplification: the iterator odometer (dimension 0 fastest) is
    written as a product; [AddFront] reverses the order. *)
Fixpoint product (choices : list (list nat)) : list (list nat) :=
  match choices with
  | [] => [[]]
  | xs :: rest => flat_map (fun r => map (fun x => x :: r) xs) (product rest)
  end.

Definition start_choices (d : dimension) : list nat :=
  match d_last d with
  | [] => [0]
  | ls => map (token_index d) ls
  end.

Definition starting_coordinates (g : graph) : list (list nat) :=
  rev (product (map start_choices (g_dims g))).

(** The cost matrix interface (levenshteinmatrix.h:29-41).  Reading may change the state
    (the compressed matrix decompresses blocks). *)
Record cost_store := {
  cs_state : Type;
  cs_get : cs_state -> list nat -> res (Z * cs_state);
  cs_set : cs_state -> list nat -> Z -> res cs_state
}.

Section Search.
Variable S : cost_store.
Variable g : graph.

(** graph.cpp:253-280, the loop of [CalculateCost] over the previous coordinates; [rec] is
    the recursive call of line 260. *)
Fixpoint min_loop (rec : cs_state S -> list nat -> res (Z * cs_state S)) (cur : list nat)
         (l : list (list nat)) (mincost : Z) (s : cs_state S) : res (Z * cs_state S) :=
  match l with
  | [] => Ok (mincost, s)
  | p :: rest =>
      let* (c0, s0) := cs_get S s p in
      let* (cost, s1) :=
        (if Z.eqb c0 C_UNCALCULATED
         then let* (c1, s1) := rec s0 p in
              let* s2 := cs_set S s1 p c1 in
              Ok (c1, s2)
         else Ok (c0, s0)) in
      let* tc := transition_cost g cur p in
      let total := (cost + tc)%Z in
      min_loop rec cur rest
        (if Z.eqb mincost C_UNCALCULATED then total
         else if (total <? mincost)%Z then total else mincost) s1
  end.

(** graph.cpp:234-287 [CalculateCost] (recursive, memoised in [m_MapCost]). *)
Fixpoint calculate_cost (fuel : nat) (s : cs_state S) (cur : list nat)
  : res (Z * cs_state S) :=
  match fuel with
  | 0 => NoFuel
  | Datatypes.S fuel' =>
      let* prevs := previous_coordinates g cur in
      match prevs with
      | [] => Ok (0%Z, s)
      | _ => min_loop (calculate_cost fuel') cur prevs C_UNCALCULATED s
      end
  end.

(** graph.cpp:380-391, the loop of [FillGraph]. *)
Fixpoint fill_loop (fuel : nat) (starts : list (list nat)) (s : cs_state S) : res (cs_state S) :=
  match starts with
  | [] => Ok s
  | c :: rest =>
      let* (v, s1) := cs_get S s c in
      let* s2 :=
        (if Z.eqb v C_UNCALCULATED
         then let* (cost, s') := calculate_cost fuel s1 c in cs_set S s' c cost
         else Ok s1) in
      fill_loop fuel rest s2
  end.

(** graph.cpp:369-399 [FillGraph]. *)
Definition fill_graph (fuel : nat) (s : cs_state S) : res (cs_state S) :=
  fill_loop fuel (starting_coordinates g) s.

(** graph.cpp:822-837, the loop of [GetBestCost]. *)
Fixpoint best_cost_loop (starts : list (list nat)) (best : Z) (s : cs_state S)
  : res (Z * cs_state S) :=
  match starts with
  | [] => Ok (best, s)
  | c :: rest =>
      let* (v, s1) := cs_get S s c in
      best_cost_loop rest
        (if Z.eqb best (-1) then v else if (v <? best)%Z then v else best) s1
  end.

(** graph.cpp:811-844 [GetBestCost]. *)
Definition get_best_cost (s : cs_state S) : res (Z * cs_state S) :=
  best_cost_loop (starting_coordinates g) (-1)%Z s.

(** graph.cpp:863-883, choice of the starting coordinate of the back-trace. *)
Fixpoint best_start_loop (starts : list (list nat)) (best : Z) (cur : option (list nat))
         (s : cs_state S) : res (option (list nat) * cs_state S) :=
  match starts with
  | [] => Ok (cur, s)
  | c :: rest =>
      let* (v, s1) := cs_get S s c in
      if Z.eqb best (-1) then best_start_loop rest v (Some c) s1
      else if (v <? best)%Z then best_start_loop rest v (Some c) s1
      else best_start_loop rest best cur s1
  end.

(** graph.cpp:944-1058, the loop of [GetBestCoordinateAndCost] in hypothesis/reference mode:
    strict improvement wins; among equals a two-token move replaces a one-token move. *)
Fixpoint best_prev_loop (cur : list nat) (l : list (list nat)) (bestcost : Z)
         (best : option (list nat)) (two : bool) (s : cs_state S)
  : res (option (list nat) * cs_state S) :=
  match l with
  | [] => Ok (best, s)
  | p :: rest =>
      let* (v, s1) := cs_get S s p in
      let* tc := transition_cost g cur p in
      let curcost := (v + tc)%Z in
      let two_p := Nat.leb 2 (List.length (changed cur p)) in
      if Z.eqb bestcost (-1) then best_prev_loop cur rest curcost (Some p) two_p s1
      else if (curcost <? bestcost)%Z then best_prev_loop cur rest curcost (Some p) two_p s1
      else if Z.eqb curcost bestcost && negb two && two_p
           then best_prev_loop cur rest curcost (Some p) two_p s1
           else best_prev_loop cur rest bestcost best two s1
  end.

(** graph.cpp:928-1066 [GetBestCoordinateAndCost]; [None] is the NULL result. *)
Definition best_prev (cur : list nat) (s : cs_state S) : res (option (list nat) * cs_state S) :=
  if is_ending cur then Ok (None, s)
  else let* prevs := previous_coordinates g cur in
       best_prev_loop cur prevs (-1)%Z None false s.

(** graph.cpp:887-900: the aligned token (one entry per dimension, NULL when unchanged). *)
Definition column_of (cur prev : list nat) : list (option nat) :=
  map (fun i => if mem i (changed cur prev) then tok_at g cur i else None)
      (seq 0 (List.length (g_dims g))).

(** graph.cpp:885-912, the back-trace loop.  [AddFrontGraphAlignedToken] pushes at the back
    of a vector read in reverse (graphalignedsegment.cpp:53-57, graphalignedsegment.h), so
    [acc] is the alignment in reading order. *)
Fixpoint trace_loop (fuel : nat) (cur : list nat) (acc : list (list (option nat)))
         (s : cs_state S) : res (list (list (option nat)) * cs_state S) :=
  match fuel with
  | 0 => NoFuel
  | Datatypes.S fuel' =>
      let* (b, s1) := best_prev cur s in
      match b with
      | None => Ok (acc, s1)
      | Some p => trace_loop fuel' p (column_of cur p :: acc) s1
      end
  end.

(** graph.cpp:847-925 [RetrieveAlignment]; with no starting coordinate the code would use a
    NULL coordinate. *)
Definition retrieve_alignment (fuel : nat) (s : cs_state S)
  : res (list (list (option nat)) * cs_state S) :=
  let* (b, s1) := best_start_loop (starting_coordinates g) (-1)%Z None s in
  match b with
  | None => Undef
  | Some c => trace_loop fuel c [] s1
  end.

End Search.

(** The plain matrix as a cost store; [exit] when out of range. *)
Definition array_store : cost_store :=
  {| cs_state := array_matrix;
     cs_get := fun m c => match array_get m c with Some v => Ok (v, m) | None => Exit end;
     cs_set := fun m c v => match array_set m c v with Some m' => Ok m' | None => Exit end |}.

(** graph.cpp:136: the plain matrix allocated by the constructor. *)
Definition new_array_store (g : graph) : array_matrix := array_new (map deep (g_dims g)).
