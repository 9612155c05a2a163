(** ROVER's composite network: src/sclite/net_dp.c [Network_dpalign_n_networks] and
    [create_alinged_NETWORK].  The messages printed for debugging are not modelled. *)
From Coq Require Import List ZArith NArith Arith Bool.
From Verif Require Import Base Net_Model NetDp_Model Merge_Model Copy_Model.
From Verif Require Text_Model Word_Model.
Import ListNotations.
Local Open Scope res_scope.

Section Wtn.
Context {D : Type}.
Variable wwd : option D -> option D -> res Z.
(** [arc_func.copy] and the word [null_alt]. *)
Variable copy : D -> D.
Variable null : D.

(** net_dp.c:692-716, an insertion: the word of the second network goes on a new arc before the
    node where the arc [x] ends, with [iter] null words beside it.  The loop that looks for the new
    arc compares pointers to the word just copied, so only that arc can be found.  [false] is the
    jump to the label ERROR. *)
Definition ins_slot (iter : nat) (d : option D) (x : nat) (A : net D) : net D * bool :=
  let z := n_arcs A in
  let A1 := insert_before A (n_to A x) (dup copy d) in
  if mem z (n_out A1 (n_to A1 x)) then
    (Nat.iter iter (fun A => insert_between A (n_from A z) (n_to A z) (dup copy (Some null))) A1, true)
  else (A1, false).

(** net_dp.c:633-729, the loop of [create_alinged_NETWORK]: the way back through the matrix.  An
    arc of the second network is copied beside the arc of the first one that it is paired with; an
    arc of the first one without partner gets a null word. *)
Fixpoint merge_back (iter : nat) (B : net D) (xs ys : list nat) (T : table) (fuel a b : nat) (A : net D) : res (net D) :=
  if (a =? 0) && (b =? 0) then Ok A else
  match fuel with
  | 0 => NoFuel
  | S f =>
      let c := T a b in
      let* y := get ys b in
      let* x := get xs a in
      let (A1, go) :=
        if points a (c_a c) then ins_slot iter (n_data B y) x A
        else if points b (c_b c) then (insert_between A (n_from A x) (n_to A x) (dup copy (Some null)), true)
        else (insert_between A (n_from A x) (n_to A x) (dup copy (n_data B y)), true) in
      if go then
        match c_a c, c_b c with
        | Some a', Some b' => merge_back iter B xs ys T f a' b' A1
        | _, _ => Undef
        end
      else Ok A1
  end.

(** net_dp.c:602-744 [create_alinged_NETWORK]; without a last pair the loop does not run. *)
Definition create_aligned (iter : nat) (A B : net D) (xs ys : list nat) (T : table) : res (net D) :=
  let* e := find_end T A B xs ys in
  match snd e with
  | None => Ok A
  | Some (a, b) => merge_back iter B xs ys T (length xs + length ys) a b A
  end.

(** net_dp.c:563-580, one round of the loop: [setup_NET_ALIGN], the matrix and the merging.  The
    counters [arc_count], which additions, merges and deletions keep, are the numbers of arcs of
    the traversals. *)
Definition merge_one (st : net D * table) (nb : nat * net D) : res (net D * table) :=
  let (A, T) := st in
  let (iter, B) := nb in
  let* xs := traverse_arcs Inorder (S (n_nodes A)) A in
  let* ys := traverse_arcs Inorder (S (n_nodes B)) B in
  if (MAX_MATRIX - 1 <? Z.of_nat (length xs))%Z || (MAX_MATRIX - 1 <? Z.of_nat (length ys))%Z then Exit else
  let* T' := fill_table wwd A B xs ys T in
  let* A' := create_aligned iter A B xs ys T' in
  Ok (A', T').

(** net_dp.c:541-551: a copy of each network with a null arc at its head (177-183). *)
Fixpoint copies (nets : list (net D)) : res (list (net D)) :=
  match nets with
  | [] => Ok []
  | N :: r => let* C := copy_net copy N in let* cs := copies r in Ok (add_head C None :: cs)
  end.

(** net_dp.c:528-600 [Network_dpalign_n_networks]; [T] is the content of the matrix, kept between
    calls.  Without networks the array of copies is read outside its bounds. *)
Definition dpalign_n (nets : list (net D)) (T : table) : res (net D) :=
  let* cs := copies nets in
  match cs with
  | [] => Undef
  | C0 :: r =>
      let* st := rfold merge_one (combine (seq 1 (length r)) r) (C0, T) in
      delete_nulls (fst st)
  end.
End Wtn.

(** net_adt.c:766-780, [Network_create_from_WTOKE] for words without alternatives: each word goes
    on a new arc at the tail. *)
Definition word_line {D} (l : list D) : net D := fold_left (fun N d => add_tail N (Some d)) l net_init.

(** ** The distance of ROVER *)
Section Rover.
Import Word_Model.
Local Notation enc := Text_Model.enc.
(** "%sync%time" *)
Definition SYNC : list N := [37; 115; 121; 110; 99; 37; 116; 105; 109; 101]%N.
Definition lower (b : N) : N := if (65 <=? b)%N && (b <=? 90)%N then (b + 32)%N else b.
Fixpoint starts (t s : list N) : bool :=
  match t, s with
  | [], _ => true
  | b :: t', c :: s' => (lower c =? b)%N && starts t' s'
  | _ :: _, [] => false
  end.
(** [TEXT_strstr(value, "%sync%time")], text.c:653-673, for texts of one byte characters; case is
    ignored. *)
Fixpoint has_sync (s : list N) : bool := starts SYNC s || match s with [] => false | _ :: s' => has_sync s' end.

(** word.c:52-109 [wwd_WORD_rover] with the comparison [equal_WORD2]; costs in thousandths.  Not
    modelled: the costs of words that contain "%sync%time" (-3, 20 and 0.00001), here undefined. *)
Definition wwd_rover (e : enc) (p1 p2 : option word) : res Z :=
  let* r := null_at e p1 p2 in
  match r with
  | inl z => Ok z
  | inr _ =>
      match p1, p2 with
      | None, Some w => if has_sync (w_value w) then Undef else if w_opt_del w then Ok 2000%Z else Ok 3000%Z
      | Some w, None => if has_sync (w_value w) then Undef else if w_opt_del w then Ok 2000%Z else Ok 3000%Z
      | Some w1, Some w2 =>
          if has_sync (w_value w1) || has_sync (w_value w2) then Undef else
          let* a1 := is_at e w1 in
          let* a2 := is_at e w2 in
          if a1 && a2 then Ok 1000%Z else
          let* c := equal_word e p1 p2 in
          if (c =? 0)%Z then Ok 0%Z else if a1 || a2 then Ok 1000%Z else Ok 4000%Z
      | None, None => Exit
      end
  end.
End Rover.
