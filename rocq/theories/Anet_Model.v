(** Networks made from transcripts with alternatives: src/sclite/net_adt.c.

    The data of an arc is a WORD (Word_Model); the tags of a word are not modelled.  The numbers
    of the traversals that are active at a time are modelled by their number: [free] is how many
    of the 31 (net_adt.c:101, 147-155) are not in use. *)
From Coq Require Import List NArith ZArith Arith Bool.
From Verif Require Import Base Net_Model Merge_Model Text_Model Word_Model.
Import ListNotations.
Local Open Scope res_scope.

(** net_adt.c:13 *)
Definition MAXSTRING : nat := N.to_nat 10000.
(** net_adt.c:101 *)
Definition MAX_TRAV : nat := 31.

(** net_adt.c:490: the word of a token, word.c:261-321; the weight is -1.0. *)
Definition word_of (p : parsed) : word := new_word (p_text p) 0 0 false false (-1000).
Definition token_word (e : enc) (tok : list N) : res word :=
  let* p := parse_word e (cstr tok) in Ok (word_of p).
(** net_adt.c:485-498: the words in a row. *)
Fixpoint add_words (e : enc) (G : net word) (toks : list (list N)) : res (net word) :=
  match toks with
  | [] => Ok G
  | t :: r => let* w := token_word e t in add_words e (add_tail G (Some w)) r
  end.

(** TEXT_strchr(value, '{') != NULL, text.c: byte by byte *)
Definition has_brace (v : list N) : bool := existsb (N.eqb 123) v.
(** TEXT_strrchr(p, '}') *)
Fixpoint last_brace (v : list N) : option nat :=
  match v with
  | [] => None
  | b :: r => match last_brace r with
              | Some i => Some (S i)
              | None => if (b =? 125)%N then Some 0 else None
              end
  end.
(** net_adt.c:971-973: the copy of the value without its first byte, cut at the last closing brace *)
Definition inside (v : list N) : list N :=
  let t := skipn 1 v in
  match last_brace t with
  | Some i => firstn i t ++ 0%N :: skipn (S i) t ++ [0%N]
  | None => t ++ [0%N]
  end.

Section Expand.
Variable e : enc.
(** [Network_create_from_TEXT] of an alternative *)
Variable create1 : list N -> res (net word).

(** net_adt.c:976-1011: the networks of the alternatives beside each other; [acc] is subnet2.
    A find that fails for lack of room takes no alternative. *)
Fixpoint alt_nets (fuel : nat) (acc : option (net word)) (m : list N) : res (option (net word)) :=
  match fuel with
  | 0 => NoFuel
  | S f =>
      let* b := rd m in
      if end_of_text b then Ok acc
      else
        let* r := find_next_alternation e MAXSTRING MAXSTRING m in
        match tr_token r with
        | Some tok =>
            if tr_found r then
              let* sub := create1 (cstr tok) in
              let* acc' := match acc with
                           | None => Ok sub
                           | Some G2 => beside G2 sub
                           end in
              alt_nets f (Some acc') (tr_rest r)
            else alt_nets f acc (tr_rest r)
        | None => alt_nets f acc (tr_rest r)
        end
  end.
(** net_adt.c:956-1022 [expand_alternates].  Without any alternative the null pointer is merged. *)
Definition expand (G : net word) (x : nat) : res (net word) :=
  match n_data G x with
  | None => Undef
  | Some w =>
      if has_brace (w_value w) then
        let m := inside (w_value w) in
        let* s := alt_nets (S (length m)) None m in
        match s with
        | None => Undef
        | Some M => replace_arc G x M
        end
      else Ok G
  end.

(** What follows [x] in a list. *)
Fixpoint next_of (x : nat) (l : list nat) : option nat :=
  match l with
  | [] => None
  | y :: r => if y =? x then hd_error r else next_of x r
  end.
(** net_adt.c:237-241: the loop over the leaving arcs of [u]; the next one is looked up before the
    operation. *)
Fixpoint arcs_loop (fuel : nat) (G : net word) (u x : nat) : res (net word) :=
  match fuel with
  | 0 => NoFuel
  | S f =>
      let nx := next_of x (n_out G u) in
      let* G' := expand G x in
      match nx with None => Ok G' | Some y => arcs_loop f G' u y end
  end.
(** net_adt.c:187-248: the depth first traversal, with [expand] on the arcs. *)
Fixpoint expand_trav (fuel : nat) (G : net word) (fringe seen : list nat) : res (net word) :=
  match fringe with
  | [] => Ok G
  | u :: r =>
      match fuel with
      | 0 => NoFuel
      | S f =>
          let '(fringe1, _, seen1) := push_all Depth G (n_out G u) r (fun _ => 0%Z) seen in
          let* G' := match n_out G u with
                     | [] => Ok G
                     | x :: _ => arcs_loop (S (n_arcs G)) G u x
                     end in
          expand_trav f G' fringe1 seen1
      end
  end.
End Expand.

(** net_adt.c:469-502 [Network_create_from_TEXT] *)
Fixpoint create (free : nat) (e : enc) (m : list N) : res (net word) :=
  let* toks := tokens e MAXSTRING MAXSTRING m in
  let* G := add_words e net_init toks in
  match free with
  | 0 => Exit
  | S f => expand_trav e (create f e) (S (n_nodes G)) G [n_start G] [n_start G]
  end.

(** * The functions on words the alignment is given: align.c:240-264, 335-358 *)

(** [equal_WORD2(a, b) == 0]; the comparison is defined on words as they are read (C28) *)
Definition word_equal (e : enc) (a b : option word) : bool :=
  match equal_word e a b with Ok z => (z =? 0)%Z | _ => false end.
(** word.c:3-5 [null_alt_WORD] *)
Definition word_null (e : enc) (a : option word) : bool :=
  match a with Some w => match is_at e w with Ok b => b | _ => false end | None => false end.
(** word.c:7-9 [opt_del_WORD] *)
Definition word_opt (a : option word) : bool :=
  match a with Some w => w_opt_del w | None => false end.
(** word.c:438-443 [make_empty_WORD] *)
Definition word_empty : word := new_word [] 0 0 false false 0.
