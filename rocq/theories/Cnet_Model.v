(** Model of the alignment by characters: the words of a network are replaced by networks of their
    characters.  src/sclite/align.c, net_adt.c. *)
From Coq Require Import List NArith ZArith Arith Bool.
From Verif Require Import Base Net_Model Merge_Model Text_Model Word_Model Anet_Model Case_Model Sep_Model.
Import ListNotations.
Local Open Scope res_scope.

Section Trav.
Context {D S : Type}.
(** The operation on an arc and its data; the second part is the state it keeps. *)
Variable op : net D -> nat -> S -> res (net D * S).

(** net_adt.c:237-241: the loop over the leaving arcs of [u]; the next one is looked up before the
    operation. *)
Fixpoint arcs_op (fuel : nat) (G : net D) (u x : nat) (s : S) : res (net D * S) :=
  match fuel with
  | O => NoFuel
  | Datatypes.S f =>
      let nx := next_of x (n_out G u) in
      let* (G', s') := op G x s in
      match nx with None => Ok (G', s') | Some y => arcs_op f G' u y s' end
  end.
(** net_adt.c:187-248: the depth first traversal (mode 0) with an operation on the arcs.  The fuel
    bounds the nodes that are popped and the arcs of each. *)
Fixpoint trav_op (fuel : nat) (G : net D) (fringe seen : list nat) (s : S) : res (net D * S) :=
  match fringe with
  | [] => Ok (G, s)
  | u :: r =>
      match fuel with
      | O => NoFuel
      | Datatypes.S f =>
          let '(fringe1, _, seen1) := push_all Depth G (n_out G u) r (fun _ => 0%Z) seen in
          let* (G', s') := match n_out G u with
                           | [] => Ok (G, s)
                           | x :: _ => arcs_op f G u x s
                           end in
          trav_op f G' fringe1 seen1 s'
      end
  end.
Definition traverse_op (fuel : nat) (G : net D) (s : S) : res (net D * S) := trav_op fuel G [n_start G] [n_start G] s.
End Trav.

(** arc->data = d *)
Definition set_data {D} (G : net D) (x : nat) (d : option D) : net D :=
  {| n_from := n_from G; n_to := n_to G; n_data := fupd (n_data G) x d; n_in := n_in G; n_out := n_out G;
     n_start := n_start G; n_stop := n_stop G; n_nodes := n_nodes G; n_arcs := n_arcs G |}.
(** An operation that changes the word of an arc. *)
Definition word_op {S} (f : word -> S -> res (word * S)) (G : net word) (x : nat) (s : S) : res (net word * S) :=
  match n_data G x with
  | None => Undef
  | Some w => let* (w', s') := f w s in Ok (set_data G x (Some w'), s')
  end.
Definition set_times (w : word) (t1 t2 dur : Z) : word :=
  {| w_value := w_value w; w_intern := w_intern w; w_opt_del := w_opt_del w; w_frag := w_frag w;
     w_t1 := t1; w_t2 := t2; w_dur := dur; w_weight := w_weight w |}.
(** align.c:631-634 [set_word_duration] *)
Definition set_duration (dur : Z) (w : word) (s : unit) : res (word * unit) := Ok (set_times w (w_t1 w) (w_t2 w) dur, tt).
(** align.c:639-644 [set_word_start]; the state is the time it is given a pointer to *)
Definition set_start (w : word) (t : Z) : res (word * Z) := Ok (set_times w t (w_dur w + t) (w_dur w), (t + w_dur w)%Z).
(** align.c:655-667 [set_word_opt_del] with a true flag, WORD_OPT_DEL_PRE_STR "(" and
    WORD_OPT_DEL_POST_STR ")"; the buffer of rsprintf grows as needed *)
Definition set_opt_del (w : word) (s : unit) : res (word * unit) :=
  Ok ({| w_value := 40%N :: w_value w ++ [41%N]; w_intern := w_intern w; w_opt_del := w_opt_del w; w_frag := w_frag w;
         w_t1 := w_t1 w; w_t2 := w_t2 w; w_dur := w_dur w; w_weight := w_weight w |}, tt).
(** align.c:752-765 as an operation *)
Definition decode_op (w : word) (s : unit) : res (word * unit) := let* w' := decode_opt_del w in Ok (w', tt).

Section Chars.
Variable e : enc.
Variable p : profile.
Variables no_ascii del_hyphen : bool.
Variable junk : N.
(** The division of a duration: floating point in the source. *)
Variable share : Z -> nat -> Z.
(** How many of the 31 traversals are free. *)
Variable free : nat.
Variable fuel : nat.

(** arc_count: the arcs that leave their node *)
Definition arc_count (G : net word) : nat := length (filter (fun x => Net_Model.mem x (n_out G (n_from G x))) (seq 0 (n_arcs G))).
(** align.c:700-713: the times of the characters and whether they are optional.  The confidence is
    not modelled. *)
Definition fill_in (w : word) (M : net word) : res (net word) :=
  let* (M, _) := traverse_op (word_op (set_duration (share (w_dur w) (arc_count M)))) fuel M tt in
  let* (M, _) := traverse_op (word_op set_start) fuel M (w_t1 w) in
  if w_opt_del w then
    let* (M, _) := traverse_op (word_op set_opt_del) fuel M tt in
    let* (M, _) := traverse_op (word_op decode_op) fuel M tt in
    Ok M
  else Ok M.
(** align.c:669-721 [expand_words_to_chars]; the state is the static buffer [chars].  [charsEsc] has
    2*chars_len+1 bytes, enough for every string [chars] can hold. *)
Definition expand_chars (G : net word) (x : nat) (buf : list N) : res (net word * list N) :=
  match n_data G x with
  | None => Undef
  | Some w =>
      if Nat.leb (length (w_value w)) 1 then Ok (G, buf)
      else
        let* t := it w in
        let* buf := separate e p no_ascii del_hyphen junk (cstr t) buf in
        let* esc := escaped buf 59 in
        let* z := strcmp e buf (cstr (w_value w)) in
        if (z =? 0)%Z then Ok (G, buf)
        else
          let* M := create free e (cstr esc) in
          let* M := fill_in w M in
          let* G' := replace_arc G x M in
          Ok (G', buf)
  end.
End Chars.

(** align.c:463-476: with [opt_del] the words in parentheses are decoded first, then with
    [char_align] the words are expanded; one network.  [buf] is the static buffer before. *)
Definition by_chars (e : enc) (p : profile) (no_ascii del_hyphen opt_del : bool) (junk : N) (share : Z -> nat -> Z) (free fuel : nat)
    (G : net word) (buf : list N) : res (net word * list N) :=
  let* (G, _) := (if opt_del then traverse_op (word_op decode_op) fuel G tt else Ok (G, tt)) in
  traverse_op (expand_chars e p no_ascii del_hyphen junk share free fuel) fuel G buf.
