(** sclite's alignment of two word networks: src/sclite/net_dp.c.
    Distances are exact integers (thousandths) where the program adds 32-bit floats. *)
From Coq Require Import List ZArith Arith Bool.
From Verif Require Import Base Net_Model.
Import ListNotations.
Local Open Scope res_scope.

(** netstr1.h:66-72 [CELL].  The back pointers are unsigned shorts; -1 is stored as 65535, an
    index that no matrix has (net_dp.c:826), here [None]. *)
Record cell := { c_min : Z; c_a : option nat; c_b : option nat }.
Definition table := nat -> nat -> cell.
Definition tset (T : table) (a b : nat) (c : cell) : table :=
  fun i j => if (i =? a) && (j =? b) then c else T i j.

(** net_dp.c:59, 98, 137 and 327: the starting values of the minima. *)
Definition BIG : Z := 999999999900.
Definition BIG_END : Z := 999999900.
(** netstr1.h MAX_MATRIX_SIZE. *)
Definition MAX_MATRIX : Z := 65535.

(** A read of an array of arcs. *)
Definition get (l : list nat) (k : nat) : res nat :=
  match nth_error l k with Some x => Ok x | None => Undef end.

(** net_dp.c:33-49 [find_arcset_id], with the [exit] of its callers when it returns -1.  The
    second loop only prints a message. *)
Fixpoint find_down (arcs : list nat) (x k : nat) : res nat :=
  let* y := get arcs k in
  if y =? x then Ok k else match k with 0 => Exit | S k' => find_down arcs x k' end.
Definition find_id (arcs : list nat) (x from : nat) : res nat :=
  match length arcs with
  | 0 => Exit
  | S n => find_down arcs x (if from =? S n then n else from)
  end.

(** path.h: the evaluation of a step of the path. *)
Inductive eval := PCorr | PSub | PIns | PDel.
Definition step (D : Type) : Type := (option D * option D * eval)%type.

Section Dp.
Context {D : Type}.
(** The functions given by the caller: the distance (which may call [exit]), the functions of
    [arc_func]: [equal(a,b) == 0], [is_null_alt], [is_opt_del] and [make_empty].  [use_count]
    only keeps a reference count and is not modelled. *)
Variable wwd : option D -> option D -> res Z.
Variable equal : option D -> option D -> bool.
Variable is_null : option D -> bool.
Variable is_opt : option D -> bool.
Variable empty : D.

(** The comparison of 83-86, 120-123, 162-166: a strictly smaller cell replaces the best. *)
Definition better {K} (best : Z * K) (c : Z) (k : K) : Z * K := if (c <? fst best)%Z then (c, k) else best.

(** net_dp.c:96-129 [calc_minimum_insert]. *)
Definition calc_insert (T : table) (B : net D) (ys : list nat) (a b : nat) : res (Z * option nat) :=
  let* y0 := get ys b in
  fold_left (fun acc y => let* best := acc in let* k := find_id ys y b in
    Ok (better best (c_min (T a k)) (Some k))) (n_in B (n_from B y0)) (Ok (BIG, None)).
(** net_dp.c:57-93 [calc_minimum_delete]. *)
Definition calc_delete (T : table) (A : net D) (xs : list nat) (a b : nat) : res (Z * option nat) :=
  let* x0 := get xs a in
  fold_left (fun acc x => let* best := acc in let* k := find_id xs x a in
    Ok (better best (c_min (T k b)) (Some k))) (n_in A (n_from A x0)) (Ok (BIG, None)).
(** net_dp.c:131-172 [calc_minimum_substi]. *)
Definition calc_substi (T : table) (A B : net D) (xs ys : list nat) (a b : nat) : res (Z * (option nat * option nat)) :=
  let* x0 := get xs a in
  let* y0 := get ys b in
  fold_left (fun acc x => let* best := acc in let* k := find_id xs x a in
    fold_left (fun acc y => let* best := acc in let* l := find_id ys y b in
      Ok (better best (c_min (T k l)) (Some k, Some l))) (n_in B (n_from B y0)) (Ok best))
    (n_in A (n_from A x0)) (Ok (BIG, (None, None))).

(** net_dp.c:189-202: the first row. *)
Definition margin_b (B : net D) (ys : list nat) (T : table) (b : nat) : res table :=
  let* m := calc_insert T B ys 0 b in
  let* y0 := get ys b in
  let* w := wwd None (n_data B y0) in
  Ok (tset T 0 b {| c_min := fst m + w; c_a := Some 0; c_b := snd m |}).
(** net_dp.c:204-217: the first column. *)
Definition margin_a (A : net D) (xs : list nat) (T : table) (a : nat) : res table :=
  let* m := calc_delete T A xs a 0 in
  let* x0 := get xs a in
  let* w := wwd (n_data A x0) None in
  Ok (tset T a 0 {| c_min := fst m + w; c_a := snd m; c_b := Some 0 |}).
(** net_dp.c:220-279 [calculate_internal_cells], one cell. *)
Definition internal (A B : net D) (xs ys : list nat) (T : table) (ab : nat * nat) : res table :=
  let (a, b) := ab in
  let* mi := calc_insert T B ys a b in
  let* md := calc_delete T A xs a b in
  let* ms := calc_substi T A B xs ys a b in
  let* x0 := get xs a in
  let* y0 := get ys b in
  let* ws := wwd (n_data A x0) (n_data B y0) in
  let* wd := wwd (n_data A x0) None in
  let* wi := wwd None (n_data B y0) in
  let s := (fst ms + ws)%Z in let d := (fst md + wd)%Z in let i := (fst mi + wi)%Z in
  Ok (tset T a b
    (if (s <=? d)%Z && (s <=? i)%Z then {| c_min := s; c_a := fst (snd ms); c_b := snd (snd ms) |}
     else if (d <? i)%Z then {| c_min := d; c_a := snd md; c_b := Some b |}
     else {| c_min := i; c_a := Some a; c_b := snd mi |})).

(** A loop whose body may end the program. *)
Definition rfold {S I} (f : S -> I -> res S) (l : list I) (s : S) : res S :=
  fold_left (fun acc i => let* s := acc in f s i) l (Ok s).

Definition fill_table (A B : net D) (xs ys : list nat) (T : table) : res table :=
  let T1 := tset T 0 0 {| c_min := 0; c_a := None; c_b := None |} in
  let* T2 := rfold (margin_b B ys) (seq 1 (length ys - 1)) T1 in
  let* T3 := rfold (margin_a A xs) (seq 1 (length xs - 1)) T2 in
  rfold (internal A B xs ys) (list_prod (seq 1 (length xs - 1)) (seq 1 (length ys - 1))) T3.

(** net_dp.c:325-347: the cheapest pair of last arcs; [None] is -1. *)
Definition find_end (T : table) (A B : net D) (xs ys : list nat) : res (Z * option (nat * nat)) :=
  match n_stop A, n_stop B with
  | Some sa, Some sb =>
    fold_left (fun acc x => let* best := acc in let* k := find_id xs x (length xs) in
      fold_left (fun acc y => let* best := acc in let* l := find_id ys y (length ys) in
        Ok (better best (c_min (T k l)) (Some (k, l)))) (n_in B sb) (Ok best))
      (n_in A sa) (Ok (BIG_END, None))
  | _, _ => Undef
  end.

Definition points (i : nat) (o : option nat) : bool := match o with Some j => i =? j | None => false end.

(** net_dp.c:355-393: the number of entries of the path. *)
Fixpoint count (nulls : bool) (A B : net D) (xs ys : list nat) (T : table) (fuel a b hops : nat) : res nat :=
  if (a =? 0) && (b =? 0) then Ok hops else
  match fuel with
  | 0 => NoFuel
  | S f =>
      let c := T a b in
      let* x0 := get xs a in
      let* y0 := get ys b in
      let skip :=
        if points b (c_b c) then negb nulls && is_null (n_data A x0)
        else if points a (c_a c) then negb nulls && is_null (n_data B y0)
        else negb nulls && is_null (n_data A x0) && is_null (n_data B y0) in
      match c_a c, c_b c with
      | Some a', Some b' => count nulls A B xs ys T f a' b' (if skip then hops else S hops)
      | _, _ => Undef
      end
  end.

(** net_dp.c:399-491: the entries, from the last one; [room] is [back_path + 1].  Writing
    before the start of the array is undefined. *)
Definition put (room : nat) (s : step D) (acc : list (step D)) : res (nat * list (step D)) :=
  match room with 0 => Undef | S r => Ok (r, s :: acc) end.
Fixpoint entries (nulls : bool) (A B : net D) (xs ys : list nat) (T : table) (fuel a b room : nat)
    (acc : list (step D)) : res (nat * list (step D)) :=
  if (a =? 0) && (b =? 0) then Ok (room, acc) else
  match fuel with
  | 0 => NoFuel
  | S f =>
      let c := T a b in
      let* x0 := get xs a in
      let* y0 := get ys b in
      let da := n_data A x0 in let db := n_data B y0 in
      let* r :=
        if points a (c_a c) then
          if nulls || negb (is_null db) then
            put room (if is_opt db then (Some empty, db, PCorr) else (None, db, PIns)) acc
          else Ok (room, acc)
        else if points b (c_b c) then
          if nulls || negb (is_null da) then
            put room (if is_opt da then (da, Some empty, PCorr) else (da, None, PDel)) acc
          else Ok (room, acc)
        else
          if nulls || negb (is_null da && is_null db) then
            put room (da, db, if equal da db then PCorr else PSub) acc
          else Ok (room, acc) in
      match c_a c, c_b c with
      | Some a', Some b' => entries nulls A B xs ys T f a' b' (fst r) (snd r)
      | _, _ => Undef
      end
  end.

(** net_dp.c:314-492 [extract_NET_ALIGN_result]: the path and its cost.  Without a last pair the
    loops do not run.  Entries that stay unwritten are undefined. *)
Definition extract (nulls : bool) (A B : net D) (xs ys : list nat) (T : table) : res (option Z * list (step D)) :=
  let* e := find_end T A B xs ys in
  match snd e with
  | None => Ok (None, [])
  | Some (a, b) =>
      let fuel := length xs + length ys in
      let* hops := count nulls A B xs ys T fuel a b 0 in
      let* r := entries nulls A B xs ys T fuel a b hops [] in
      match fst r with 0 => Ok (Some (fst e), snd r) | _ => Undef end
  end.

(** net_dp.c:494-526 [Network_dpalign], 288-312 [setup_NET_ALIGN] and the size check 826-829 of
    [alloc_NET_ALIGN].  [T] is the content of the matrix, which is kept between calls.  The two
    networks keep the null arcs added at their heads. *)
Definition dpalign (nulls : bool) (fuel : nat) (T : table) (NA NB : net D)
    : res (net D * net D * (option Z * list (step D))) :=
  let A := add_head NA None in
  let B := add_head NB None in
  if (MAX_MATRIX - 1 <? Z.of_nat (n_arcs A))%Z || (MAX_MATRIX - 1 <? Z.of_nat (n_arcs B))%Z then Exit else
  let* xs := traverse_arcs Inorder fuel A in
  let* ys := traverse_arcs Inorder fuel B in
  let* T' := fill_table A B xs ys T in
  let* r := extract nulls A B xs ys T' in
  Ok (A, B, r).

End Dp.
