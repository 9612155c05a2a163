(** Model of the inference of a word segmentation from a lexicon: src/sclite/align.c:211-400,
    net_adt.c:600-658, word.c:184-217, text.c:1625-1736. *)
From Coq Require Import List NArith ZArith Arith Bool.
From Verif Require Import Base Net_Model NetDp_Model Merge_Model Text_Model Word_Model Anet_Model Case_Model Sep_Model Cnet_Model.
Import ListNotations.
Local Open Scope res_scope.

(** * The lexicon *)

(** text.c:1484-1506 [TEXT_strspn] with the set " \t\n" *)
Definition blank (b : N) : bool := ((b =? 32) || (b =? 9) || (b =? 10))%N.
Fixpoint strspn (fuel : nat) (e : enc) (m : list N) : res nat :=
  match fuel with
  | O => NoFuel
  | S f =>
      let* b := rd m in
      if end_of_text b then Ok 0
      else
        let* k := nbytes e m in
        if Nat.ltb 1 k then Ok 0
        else if blank b then let* n := strspn f e (tl m) in Ok (S n)
        else Ok 0
  end.
(** text.c:1511-1535 [TEXT_strcspn] with the same set *)
Fixpoint strcspn (fuel : nat) (e : enc) (m : list N) : res nat :=
  match fuel with
  | O => NoFuel
  | S f =>
      let* b := rd m in
      if end_of_text b then Ok 0
      else
        let* k := nbytes e m in
        if Nat.ltb 1 k then let* m' := adv k m in let* n := strcspn f e m' in Ok (k + n)
        else if blank b then Ok 0
        else let* n := strcspn f e (tl m) in Ok (S n)
  end.
(** text.h TEXT_xnewline *)
Definition xnewline (l : list N) : list N := if (last l 0 =? 10)%N then removelast l else l.
(** text.c:1684-1693 with column 0: what is added of a line *)
Definition field0 (e : enc) (line : list N) : res (list N) :=
  let m := cstr (xnewline line) in
  let* i := strspn (S (length m)) e m in
  let* m := adv i m in
  let* n := strcspn (S (length m)) e m in
  Ok (firstn n m).
Fixpoint fields (e : enc) (ls : list (list N)) : res (list (list N)) :=
  match ls with
  | [] => Ok []
  | l :: r => let* t := field0 e l in let* ts := fields e r in Ok (t :: ts)
  end.
(** text.c:1653-1703 [load_TEXT_LIST] with column 0, for a file that can be read.  What is done to
    the buffer between the lines does not matter, the next line is written over it.
    [add_TEXT_LIST] (1625-1636) appends; it only complains about an entry that is out of order. *)
Definition load_list (fresh : nat -> list N) (e : enc) (file : list N) : res (list (list N)) :=
  let* ls := read_lines fresh (S (length file)) (repeat 0%N 100) 100 file in
  fields e ls.
(** align.c:233-235, 328-330: the longest entry in characters, at least 1 *)
Fixpoint longest (e : enc) (tl : list (list N)) (acc : nat) : res nat :=
  match tl with
  | [] => Ok acc
  | t :: r => let* s := chrlen e (cstr t) in longest e r (if Nat.ltb acc s then s else acc)
  end.

(** bsearch (stdlib-bsearch.h of the C library) with [bsearch_TEXT_strcmp] *)
Fixpoint search_loop (fuel : nat) (e : enc) (key : list N) (l : list (list N)) (lo hi : nat) : res (option nat) :=
  match fuel with
  | O => NoFuel
  | S f =>
      if Nat.ltb lo hi then
        let mid := Nat.div2 (lo + hi) in
        match nth_error l mid with
        | None => Undef
        | Some x =>
            let* z := strcmp e (cstr key) (cstr x) in
            if (z <? 0)%Z then search_loop f e key l lo mid
            else if (0 <? z)%Z then search_loop f e key l (mid + 1) hi
            else Ok (Some mid)
        end
      else Ok None
  end.
(** text.c:1714-1722 [in_TEXT_LIST] *)
Definition in_list (e : enc) (l : list (list N)) (key : list N) : res (option nat) := search_loop (S (length l)) e key l 0 (length l).
(** text.c:1729-1736 [WORD_in_TEXT_LIST] *)
Definition word_in_list (e : enc) (l : list (list N)) (w : word) : res bool :=
  let* t := it w in
  let* i := in_list e l t in
  Ok (match i with Some _ => true | None => false end).

(** word.c:184-217 [append_WORD_no_NULL]; the confidence is not modelled.  The strings of [rsprintf]
    grow as needed. *)
Definition append_word (e : enc) (w1 w2 : word) : res word :=
  let base v i o := {| w_value := v; w_intern := i; w_opt_del := o; w_frag := w_frag w1 && w_frag w2;
                       w_t1 := w_t1 w1; w_t2 := w_t2 w2; w_dur := w_t2 w2 - w_t1 w1; w_weight := w_weight w1 + w_weight w2 |} in
  if w_opt_del w1 && w_opt_del w2 then
    let* t1 := it w1 in
    let* t2 := it w2 in
    Ok (base (40%N :: (t1 ++ t2) ++ [41%N]) (Some (t1 ++ t2)) true)
  else
    let* a1 := is_at e w1 in
    if a1 : bool then let* t2 := it w2 in Ok (base t2 None false)
    else
      let* a2 := is_at e w2 in
      if a2 : bool then let* t1 := it w1 in Ok (base t1 None false)
      else
        let* t1 := it w1 in
        let* t2 := it w2 in
        Ok (base (t1 ++ t2) None false).

(** * More arcs *)
Section Connect.
Context {D : Type}.
Variable append : D -> D -> res D.
Variable test : D -> res bool.

(** net_adt.c:616-625: the loop over the arcs that leave [u]; [rec] is the recursive call.  The next
    arc is looked up after it.  A list that gets longer while it is gone through runs out of fuel. *)
Fixpoint connect_loop (rec : net D -> nat -> D -> res (net D)) (base u : nat) (v : D) (fuel : nat) (G : net D) (x : nat) : res (net D) :=
  match fuel with
  | O => NoFuel
  | S f =>
      match n_data G x with
      | None => Undef
      | Some d =>
          let* nd := append v d in
          let* pass := test nd in
          let G1 := if pass : bool then insert_between G (n_from G base) (n_to G x) (Some nd) else G in
          let* G2 := rec G1 (n_to G1 x) nd in
          match next_of x (n_out G2 u) with
          | None => Ok G2
          | Some y => connect_loop rec base u v f G2 y
          end
      end
  end.
(** net_adt.c:609-626 [recursive_connect]; [u] is cur_arc->to_node *)
Fixpoint connect (k : nat) (base : nat) (G : net D) (u : nat) (v : D) : res (net D) :=
  match k with
  | O => Ok G
  | S k' =>
      match n_out G u with
      | [] => Ok G
      | x :: _ => connect_loop (connect k' base) base u v (S (n_arcs G)) G x
      end
  end.
(** net_adt.c:650-654: one arc of the set *)
Definition connect_arc (k : nat) (G : net D) (x : nat) : res (net D) :=
  match n_data G x with
  | None => match k with O | 1 => Ok G | _ => Undef end
  | Some d => connect (k - 1) x G (n_to G x) d
  end.
Fixpoint connect_all (k : nat) (G : net D) (xs : list nat) : res (net D) :=
  match xs with
  | [] => Ok G
  | x :: r => let* G' := connect_arc k G x in connect_all k G' r
  end.
(** net_adt.c:628-658 [Network_fully_connect_cond].  The set has room for one arc more than the
    network has.  For a factor of 0, which no caller gives, the recursion would not end. *)
Definition fully_connect (k : nat) (G : net D) : res (net D) :=
  match k with
  | O => NoFuel
  | _ => let* xs := traverse_arcs Breadth (S (n_nodes G)) G in connect_all k G xs
  end.
End Connect.

(** * The alignment *)
Section Infer.
Variable e : enc.
Variable p : profile.
Variable no_ascii : bool.
Variable junk : N.
Variable share : Z -> nat -> Z.
(** How many traversals are free before; one is used by the traversal that expands the words. *)
Variable free : nat.
Variable fuel : nat.
(** align.c:216, 311: the lexicon is kept from the first call on. *)
Variable lex : list (list N).
Variable maxlen : nat.

(** align.c:767-780 as an operation *)
Definition frag_op (w : word) (s : unit) : res (word * unit) := let* w' := decode_fragment w in Ok (w', tt).
(** align.c:276-284, 372-380: one of the networks *)
Definition prepare (opt_del fcorr : bool) (G : net word) : res (net word) :=
  let* (G, _) := (if opt_del then traverse_op (word_op decode_op) fuel G tt else Ok (G, tt)) in
  let* (G, _) := (if fcorr then traverse_op (word_op frag_op) fuel G tt else Ok (G, tt)) in
  Ok G.
(** align.c:286-289, 383-387: characters, and the words they make *)
Definition segment (G : net word) (buf : list N) : res (net word * list N) :=
  let* (G, buf) := traverse_op (expand_chars e p no_ascii false junk share (free - 1) fuel) fuel G buf in
  let* G := fully_connect (append_word e) (word_in_list e lex) maxlen G in
  Ok (G, buf).
(** align.c:238-251, 334-346: the text in lower case; the result of TEXT_str_to_master is its static
    buffer, of which the text is copied *)
Definition lowered (fold : bool) (static : option (list N)) (m : list N) : res (option (list N) * list N) :=
  if fold then
    let* out := to_master e p junk true static m in
    let* n := strlen out in
    Ok (Some out, cstr (firstn n out))
  else Ok (static, m).

(** align.c:306-405 [infer_word_seg_algo1]: the words of the hypothesis are made anew. *)
Definition infer1 (case_sense opt_del fcorr : bool) (static : option (list N)) (buf : list N) (fuel' : nat) (T : NetDp_Model.table) (ref hyp : list N)
    : res (net word * net word * (option Z * list (step word)) * list N) :=
  let* (static, ref) := lowered (negb case_sense) static ref in
  let* R := create free e ref in
  let* (static, hyp) := lowered (negb case_sense) static hyp in
  let* H := create free e hyp in
  let* H := prepare opt_del fcorr H in
  let* R := prepare opt_del fcorr R in
  let* (H, buf) := segment H buf in
  let* a := dpalign (wwd_word e) (word_equal e) (word_null e) word_opt word_empty false fuel' T R H in
  Ok (a, buf).
(** align.c:211-304 [infer_word_seg_algo2]: those of the reference are.  The texts in lower case are
    made if case matters, and not used. *)
Definition infer2 (case_sense opt_del fcorr : bool) (static : option (list N)) (buf : list N) (fuel' : nat) (T : NetDp_Model.table) (ref hyp : list N)
    : res (net word * net word * (option Z * list (step word)) * list N) :=
  let* (static, _) := lowered case_sense static ref in
  let* R := create free e ref in
  let* (static, _) := lowered case_sense static hyp in
  let* H := create free e hyp in
  let* H := prepare opt_del fcorr H in
  let* R := prepare opt_del fcorr R in
  let* (R, buf) := segment R buf in
  let* a := dpalign (wwd_word e) (word_equal e) (word_null e) word_opt word_empty false fuel' T R H in
  Ok (a, buf).
End Infer.
