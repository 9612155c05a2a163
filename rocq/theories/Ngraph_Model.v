(** Model of asclite's alignment graph (graph.cpp) in its two other settings: the generic
    (n-way) mode of option -generic-cost, and the time-based cost model of option
    -time-base-cost in either mode. *)
From Coq Require Import List ZArith Arith Bool String Ascii.
From Verif Require Import Base Matrix_Model Graph_Model Token_Model.
Import ListNotations.
Open Scope res_scope.

(** The settings of a graph: [m_HypRefStatus] (graph.cpp:43), whether [m_typeCostModel] is 2
    (graph.h:49), and what incrementing an iterator that equals [end()] does: with [n_wrap]
    it goes back to [begin()] (a circular doubly linked list with a sentinel node, as
    libstdc++ and libc++ have it); without, it is undefined (ISO C++). *)
Record nmode := { n_hypref : bool; n_time : bool; n_wrap : bool }.

(** [list::unique] (graph.cpp:608): drops an element equal to the one kept before it. *)
Fixpoint unique_from (x : nat) (l : list nat) : list nat :=
  match l with
  | [] => []
  | y :: r => if Nat.eqb x y then unique_from x r else y :: unique_from y r
  end.
Definition unique (l : list nat) : list nat :=
  match l with [] => [] | x :: r => x :: unique_from x r end.

(** graph.cpp:604-609: the choices of one dimension, the unchanged index first. *)
Definition choices_of (e : tok_env) (d : dimension) (k : nat) : res (list nat) :=
  let* p := previous_indexes e d k in Ok (unique (k :: p)).

Fixpoint all_choices (e : tok_env) (ds : list dimension) (c : list nat) : res (list (list nat)) :=
  match ds, c with
  | d :: ds', k :: c' =>
      let* x := choices_of e d k in
      let* rest := all_choices e ds' c' in
      Ok (x :: rest)
  | [], _ => Ok []
  | _, [] => Undef
  end.

(** graph.cpp:620-638, one turn of the iterators.  An iterator is its position in its list;
    the position [length] is [end()].  Lists are never empty (graph.cpp:607). *)
Fixpoint tick (wrap : bool) (lens pos : list nat) : res (list nat) :=
  match lens, pos with
  | l :: ls, p :: ps =>
      let* p' := (if Nat.eqb p l then (if wrap then Ok 0 else Undef) else Ok (S p)) in
      if Nat.eqb p' l
      then let* ps' := tick wrap ls ps in Ok (p' :: ps')
      else Ok (p' :: ps)
  | [], [] => Ok []
  | _, _ => Undef
  end.

(** graph.cpp:618,640: the last iterator is at the end of its list. *)
Fixpoint last_at_end (lens pos : list nat) : bool :=
  match lens, pos with
  | [l], [p] => Nat.eqb p l
  | _ :: ls, _ :: ps => last_at_end ls ps
  | _, _ => false
  end.

(** graph.cpp:642-651: the coordinate read through the iterators, if none is at an end. *)
Fixpoint pick (lists : list (list nat)) (pos : list nat) : option (list nat) :=
  match lists, pos with
  | l :: ls, p :: ps =>
      match nth_error l p, pick ls ps with
      | Some x, Some r => Some (x :: r)
      | _, _ => None
      end
  | _, _ => Some []
  end.

(** graph.cpp:618-661, the loop; [acc] is the list being built with [AddFront]. *)
Fixpoint odometer (wrap : bool) (fuel : nat) (lists : list (list nat)) (pos : list nat)
         (acc : list (list nat)) : res (list (list nat)) :=
  match fuel with
  | 0 => NoFuel
  | S fuel' =>
      let lens := map (@List.length nat) lists in
      if last_at_end lens pos then Ok acc
      else
        let* pos' := tick wrap lens pos in
        let acc' :=
          if last_at_end lens pos' then acc
          else match pick lists pos' with Some c => c :: acc | None => acc end in
        odometer wrap fuel' lists pos' acc'
  end.

(** graph.cpp:588-671 [PreviousCoordinatesGeneric].  The loop makes at most as many turns as
    there are positions of the iterators; that bound is the fuel. *)
Definition previous_generic (wrap : bool) (g : graph) (cur : list nat) : res (list (list nat)) :=
  if is_ending cur then Ok []
  else
    let* lists := all_choices (g_env g) (g_dims g) cur in
    let turns := fold_right (fun l n => S (List.length l) * n) 1 lists in
    odometer wrap (S turns) lists (map (fun _ => 0) lists) [].

(** graph.h:186 [PreviousCoordinates]. *)
Definition n_previous (m : nmode) (g : graph) (cur : list nat) : res (list (list nat)) :=
  if n_hypref m then previous_coordinates g cur else previous_generic (n_wrap m) g cur.

(** ** Word-based cost of a column in generic mode *)

(** graph.cpp:775-782: the last group whose first token the new one is equivalent to. *)
Fixpoint last_match (e : tok_env) (t : nat) (i : nat) (found : option nat)
         (gs : list (nat * nat)) : option nat :=
  match gs with
  | [] => found
  | (r, _) :: rest => last_match e t (S i) (if te_equiv e t r then Some i else found) rest
  end.

(** graph.cpp:784-792: a group is [vectToken[j]] with [vectCounts[j]]. *)
Definition count_token (e : tok_env) (gs : list (nat * nat)) (t : nat) : res (list (nat * nat)) :=
  match last_match e t 0 None gs with
  | None => Ok (gs ++ [(t, 1)])
  | Some i =>
      match nth_error gs i with
      | Some (r, k) => Ok (update gs i (r, S k))
      | None => Undef
      end
  end.

(** graph.cpp:766-796, over the changed dimensions: the groups, [deletable], [nbrchange]. *)
Fixpoint count_loop (g : graph) (cur : list nat) (is : list nat) (gs : list (nat * nat))
         (deletable : bool) (nbr : nat) : res (list (nat * nat) * bool * nat) :=
  match is with
  | [] => Ok (gs, deletable, nbr)
  | i :: rest =>
      match tok_at g cur i with
      | None => Undef
      | Some t =>
          let* gs' := count_token (g_env g) gs t in
          count_loop g cur rest gs' (te_optional (g_env g) t) (S nbr)
      end
  end.

(** graph.cpp:800-804. *)
Definition max_count (gs : list (nat * nat)) : nat :=
  fold_left (fun m r => if Nat.ltb m (snd r) then snd r else m) gs 0.

(** graph.cpp:755-809 [GetTransitionCostGenericWordBased].  Simplification: unbounded
    integers (the code multiplies [int] and [size_t]). *)
Definition generic_word_cost (g : graph) (cur prev : list nat) : res Z :=
  let* (r, nbr) := count_loop g cur (changed cur prev) [] false 0 in
  let '(gs, deletable) := r in
  Ok (cost_insertion g deletable * (Z.of_nat (List.length (g_dims g)) - Z.of_nat nbr)
      + cf_trans (g_cfg g) * (Z.of_nat nbr - Z.of_nat (max_count gs)))%Z.

(** ** Time-based costs *)

(** graph.cpp:69,97-103, the smallest [TimeSafeDivider] of the tokens, -1 without tokens. *)
Fixpoint min_divider (e : tok_env) (ts : list nat) (m : Z) : res Z :=
  match ts with
  | [] => Ok m
  | t :: rest =>
      let* v := time_safe_divider {| to_start := te_start e t; to_end := te_end e t |} in
      min_divider e rest (if (Z.eqb m (-1) || (v <? m)%Z)%bool then v else m)
  end.

(** graph.cpp:47-51,150-156 [m_TimeBasedSafeDivider]. *)
Definition time_divider (g : graph) : res Z :=
  let c := g_cfg g in
  let* m := min_divider (g_env g) (flat_map d_toks (g_dims g)) (-1)%Z in
  Ok (Z.min (Z.min (Z.min (cf_trans c) (cf_ins c)) (cf_opt c)) (cf_nonspk c) * m)%Z.

(** The integer division by [m_TimeBasedSafeDivider]; by zero it is undefined. *)
Definition scaled (g : graph) (x : Z) : res Z :=
  let* d := time_divider g in
  if Z.eqb d 0 then Undef else Ok (Z.quot x d).

(** [transform(..., toupper)] in the C locale (graph.cpp:1388,1393). *)
Definition upper_ascii (a : ascii) : ascii :=
  let n := nat_of_ascii a in
  if (Nat.leb 97 n && Nat.leb n 122)%bool then ascii_of_nat (n - 32) else a.
Fixpoint upper (s : string) : string :=
  match s with
  | EmptyString => EmptyString
  | String a r => String (upper_ascii a) (upper r)
  end.

(** graph.cpp:1379-1406 [GetCostTransitionTimeBased]; [Exit] on a file or channel mismatch. *)
Definition time_pair (g : graph) (t1 t2 : nat) : res Z :=
  let e := g_env g in let c := g_cfg g in
  let base := (cf_trans c * (Z.abs (te_start e t1 - te_start e t2)
                             + Z.abs (te_end e t1 - te_end e t2)))%Z in
  if negb (cf_spk c) then Ok base
  else if negb (String.eqb (te_file e t1) (te_file e t2))
          || negb (String.eqb (te_chan e t1) (te_chan e t2)) then Exit
  else if negb (String.eqb (cf_getref c (te_file e t1) (te_chan e t1) (upper (te_spk e t1)))
                           (upper (te_spk e t2)))
       then Ok (base + cf_nonspk c)%Z
       else Ok base.

(** graph.cpp:1336-1377 [GetTransitionCostHypRefTimeBased]. *)
Definition time_hypref_cost (g : graph) (cur prev : list nat) : res Z :=
  let e := g_env g in let cfg := g_cfg g in
  match changed cur prev with
  | [] => Undef
  | [i] =>
      match tok_at g cur i with
      | Some t =>
          let deletable :=
            if (Nat.ltb i (g_ref g) && cf_opt_hyp cfg) || (negb (Nat.ltb i (g_ref g)) && cf_opt_ref cfg)
            then te_optional e t else false in
          scaled g (cost_insertion g deletable * (te_end e t - te_start e t))%Z
      | None => Undef
      end
  | i :: j :: _ =>
      match tok_at g cur i, tok_at g cur j with
      | Some t1, Some t2 => let* x := time_pair g t1 t2 in scaled g x
      | _, _ => Undef
      end
  end.

(** graph.cpp:1416-1429: earliest start, latest end and optionality of the last token. *)
Fixpoint span_loop (g : graph) (cur : list nat) (is : list nat) (mint maxt : Z) (deletable : bool)
  : res (Z * Z * bool) :=
  match is with
  | [] => Ok (mint, maxt, deletable)
  | i :: rest =>
      match tok_at g cur i with
      | None => Undef
      | Some t =>
          let s := te_start (g_env g) t in
          let f := te_end (g_env g) t in
          span_loop g cur rest
            (if (Z.eqb mint (-1) || (s <? mint)%Z)%bool then s else mint)
            (if (Z.eqb maxt (-1) || (maxt <? f)%Z)%bool then f else maxt)
            (te_optional (g_env g) t)
      end
  end.

(** graph.cpp:1431-1440, over all dimensions: [transitioncost] is assigned, not increased. *)
Fixpoint time_loop (g : graph) (cur prev : list nat) (is : list nat) (mint maxt : Z)
         (del tr : Z) : res (Z * Z) :=
  match is with
  | [] => Ok (del, tr)
  | i :: rest =>
      if mem i (changed cur prev)
      then match tok_at g cur i with
           | None => Undef
           | Some t =>
               time_loop g cur prev rest mint maxt del
                 (maxt - te_end (g_env g) t + te_start (g_env g) t - mint)%Z
           end
      else time_loop g cur prev rest mint maxt (del + (maxt - mint))%Z tr
  end.

(** graph.cpp:1408-1443 [GetTransitionCostGenericTimeBased]. *)
Definition time_generic_cost (g : graph) (cur prev : list nat) : res Z :=
  let* (r, deletable) := span_loop g cur (changed cur prev) (-1)%Z (-1)%Z false in
  let '(mint, maxt) := r in
  let* (del, tr) := time_loop g cur prev (seq 0 (List.length (g_dims g))) mint maxt 0%Z 0%Z in
  scaled g (cost_insertion g deletable * del + cf_trans (g_cfg g) * tr)%Z.

(** graph.h:196, graph.cpp:1320-1334 [GetTransitionCost]. *)
Definition n_cost (m : nmode) (g : graph) (cur prev : list nat) : res Z :=
  if n_hypref m
  then (if n_time m then time_hypref_cost g cur prev else transition_cost g cur prev)
  else (if n_time m then time_generic_cost g cur prev else generic_word_cost g cur prev).

(** ** The search, in any setting *)

Section Search.
Variable S : cost_store.
Variable m : nmode.
Variable g : graph.

(** graph.cpp:253-280, the loop of [CalculateCost]. *)
Fixpoint n_min_loop (rec : cs_state S -> list nat -> res (Z * cs_state S)) (cur : list nat)
         (l : list (list nat)) (mincost : Z) (s : cs_state S) : res (Z * cs_state S) :=
  match l with
  | [] => Ok (mincost, s)
  | p :: rest =>
      let* (c0, s0) := cs_get S s p in
      let* (cost, s1) :=
        (if Z.eqb c0 C_UNCALCULATED
         then let* (c1, s1) := rec s0 p in
              let* s2 := cs_set S s1 p c1 in
              Ok (c1, s2)
         else Ok (c0, s0)) in
      let* tc := n_cost m g cur p in
      let total := (cost + tc)%Z in
      n_min_loop rec cur rest
        (if Z.eqb mincost C_UNCALCULATED then total
         else if (total <? mincost)%Z then total else mincost) s1
  end.

(** graph.cpp:234-287 [CalculateCost]. *)
Fixpoint n_calculate (fuel : nat) (s : cs_state S) (cur : list nat) : res (Z * cs_state S) :=
  match fuel with
  | 0 => NoFuel
  | Datatypes.S fuel' =>
      let* prevs := n_previous m g cur in
      match prevs with
      | [] => Ok (0%Z, s)
      | _ => n_min_loop (n_calculate fuel') cur prevs C_UNCALCULATED s
      end
  end.

(** graph.cpp:369-399 [FillGraph]. *)
Fixpoint n_fill_loop (fuel : nat) (starts : list (list nat)) (s : cs_state S) : res (cs_state S) :=
  match starts with
  | [] => Ok s
  | c :: rest =>
      let* (v, s1) := cs_get S s c in
      let* s2 :=
        (if Z.eqb v C_UNCALCULATED
         then let* (cost, s') := n_calculate fuel s1 c in cs_set S s' c cost
         else Ok s1) in
      n_fill_loop fuel rest s2
  end.
Definition n_fill (fuel : nat) (s : cs_state S) : res (cs_state S) :=
  n_fill_loop fuel (starting_coordinates g) s.

(** graph.cpp:944-1058, the loop of [GetBestCoordinateAndCost]: [two] is [isCorrectSubs],
    [most] is [bestnumchg] (which the first two branches leave alone). *)
Fixpoint n_best_loop (cur : list nat) (l : list (list nat)) (bestcost : Z)
         (best : option (list nat)) (two : bool) (most : nat) (s : cs_state S)
  : res (option (list nat) * cs_state S) :=
  match l with
  | [] => Ok (best, s)
  | p :: rest =>
      let* (v, s1) := cs_get S s p in
      let* tc := n_cost m g cur p in
      let curcost := (v + tc)%Z in
      let num := List.length (changed cur p) in
      let two_p := Nat.leb 2 num in
      if Z.eqb bestcost (-1) then n_best_loop cur rest curcost (Some p) two_p most s1
      else if (curcost <? bestcost)%Z then n_best_loop cur rest curcost (Some p) two_p most s1
      else if n_hypref m && Z.eqb curcost bestcost && negb two
           then (if two_p then n_best_loop cur rest curcost (Some p) two_p most s1
                 else n_best_loop cur rest bestcost best two most s1)
      else if Z.eqb curcost bestcost && negb (n_hypref m)
           then (if Nat.ltb most num then n_best_loop cur rest curcost (Some p) two num s1
                 else n_best_loop cur rest bestcost best two most s1)
      else n_best_loop cur rest bestcost best two most s1
  end.

(** graph.cpp:928-1066 [GetBestCoordinateAndCost]. *)
Definition n_best (cur : list nat) (s : cs_state S) : res (option (list nat) * cs_state S) :=
  if is_ending cur then Ok (None, s)
  else let* prevs := n_previous m g cur in
       n_best_loop cur prevs (-1)%Z None false 0 s.

(** graph.cpp:885-912, the back-trace loop. *)
Fixpoint n_trace (fuel : nat) (cur : list nat) (acc : list (list (option nat)))
         (s : cs_state S) : res (list (list (option nat)) * cs_state S) :=
  match fuel with
  | 0 => NoFuel
  | Datatypes.S fuel' =>
      let* (b, s1) := n_best cur s in
      match b with
      | None => Ok (acc, s1)
      | Some p => n_trace fuel' p (column_of g cur p :: acc) s1
      end
  end.

(** graph.cpp:847-925 [RetrieveAlignment]. *)
Definition n_retrieve (fuel : nat) (s : cs_state S)
  : res (list (list (option nat)) * cs_state S) :=
  let* (b, s1) := best_start_loop S (starting_coordinates g) (-1)%Z None s in
  match b with
  | None => Undef
  | Some c => n_trace fuel c [] s1
  end.

(** [Levenshtein::Align], [GetCost] and [GetResults] (levenshtein.h:38,42,50): fill the graph,
    read the best cost, retrieve the alignment. *)
Definition n_align (fuel : nat) (s : cs_state S) : res (Z * list (list (option nat))) :=
  let* s1 := n_fill fuel s in
  let* (best, s2) := get_best_cost S g s1 in
  let* (al, _) := n_retrieve fuel s2 in
  Ok (best, al).

End Search.

(** levenshtein.cpp:49-71: which sides an [align.optionally] value makes optional words cheap
    for, as (references, hypotheses). *)
Definition optional_sides (v : string) : bool * bool :=
  if (String.eqb v "both" || String.eqb v "ref")%string then (true, false)
  else if (String.eqb v "both" || String.eqb v "hyp")%string then (false, true)
  else (false, false).
