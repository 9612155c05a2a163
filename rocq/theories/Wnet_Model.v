(** Model of the network built from time marked words, /repo/src/sclite/net_adt.c:660-795
    [Network_create_from_WTOKE].

    The network is represented as the series of its parts: a word, or the alternatives of an
    alternation, each a list of words; [None] is the null word "@".  Network_add_arc_to_tail/head,
    Network_add_net_to_tail/head and Network_merge_network appear as operations on these lists, not
    as graph operations.  The confidences are left out. *)
From Coq Require Import List NArith ZArith Arith Bool.
From Verif Require Import Base Chan_Model.
Import ListNotations.
Local Open Scope res_scope.
Local Open Scope Z_scope.

(** "<ALT>" *)
Definition ALT_SEP : str := (ALT ++ [62])%N.
Definition is_sep (w : word) : bool := casecmp ALT_SEP (sp w).

(** A word with its flags "alternate" and "ignore". *)
Record iword := { the_mword :> mword; ignore : bool }.

Inductive part := Arc (w : word) | Par (alts : list (list (option word))).

(** Network_add_arc_to_tail or _to_head, by the direction of the text. *)
Definition add {A} (ltr : bool) (net : list A) (a : A) : list A := if ltr then net ++ [a] else a :: net.

(** net_adt.c:680-683: past the marks of the begin. *)
Fixpoint skip_begin (fuel : nat) (wt : list iword) (end_ i : Z) : res Z :=
  match fuel with
  | O => NoFuel
  | S f =>
    if (i <=? Z.of_nat (length wt)) && (i <=? end_) then
      let* w := wd wt i in if is_begin w then skip_begin f wt end_ (i + 1) else Ok i
    else Ok i
  end.
(** net_adt.c:689-715: the words of an alternative. *)
Fixpoint alt_words (fuel : nat) (ltr : bool) (wt : list iword) (end_ i : Z) (net : list (option word)) : res (list (option word) * Z) :=
  match fuel with
  | O => NoFuel
  | S f =>
    if (i <=? Z.of_nat (length wt)) && (i <=? end_) then
      let* w := wd wt i in
      if is_marker w then Ok (net, i) else alt_words f ltr wt end_ (i + 1) (add ltr net (Some (the_word w)))
    else Ok (net, i)
  end.
(** net_adt.c:684-749: the alternatives. *)
Fixpoint alternatives (fuel : nat) (ltr : bool) (wt : list iword) (end_ i : Z) (acc : list (list (option word))) : res (list (list (option word)) * Z) :=
  match fuel with
  | O => NoFuel
  | S f =>
    let* (net, i1) := alt_words (S (length wt)) ltr wt end_ i [] in
    let (net2, i2) := match net with [] => ([None], i1 + 1) | _ => (net, i1) end in
    let acc2 := acc ++ [net2] in
    let* w := wd wt i2 in
    let* stay := (if is_sep w then let* v := wd wt (i2 + 1) in Ok (is_end v) else Ok false) in
    let i3 := if stay then i2 else if is_end w then i2 else i2 + 1 in
    if (i3 <=? Z.of_nat (length wt)) && (i3 <=? end_) then
      let* v := wd wt i3 in
      if is_end v then Ok (acc2, i3) else alternatives f ltr wt end_ i3 acc2
    else Ok (acc2, i3)
  end.
(** net_adt.c:674-793: the loop over the words. *)
Fixpoint net_loop (fuel : nat) (ltr : bool) (wt : list iword) (end_ i : Z) (net : list part) : res (list part) :=
  match fuel with
  | O => NoFuel
  | S f =>
    if (i <=? Z.of_nat (length wt)) && (i <=? end_) then
      let* w := wd wt i in
      if negb (ignore w) && alternate w then
        let* i1 := skip_begin (S (length wt)) wt end_ i in
        let* (alts, i2) := alternatives (S (length wt)) ltr wt end_ i1 [] in
        net_loop f ltr wt end_ (i2 + 1) (add ltr net (Par alts))
      else if negb (ignore w) then net_loop f ltr wt end_ (i + 1) (add ltr net (Arc w))
      else net_loop f ltr wt end_ (i + 1) net
    else Ok net
  end.
(** net_adt.c:660-795 *)
Definition net_from_words (ltr : bool) (wt : list iword) (start end_ : Z) : res (list part) :=
  net_loop (S (length wt)) ltr wt end_ start [].
