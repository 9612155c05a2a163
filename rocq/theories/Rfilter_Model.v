(** Model of the text filter rfilter1, /repo/src/rfilter1. *)
From Coq Require Import List NArith ZArith Arith Bool.
From Verif Require Import Base.
Import ListNotations.
Local Open Scope res_scope.

Definition text := list N.

(** rulestr2.h:6-12: a rule; the stored lengths are those of the strings.  (For a left hand side
    that consists of a single quotation mark the stored length is -1 and the string is empty:
    such a rule is filed under the character 0 and never looked at.) *)
Record rule := { lctx : text; sin : text; rctx : text; sout : text }.

(** toupper and tolower in the C locale. *)
Definition upper (c : N) : N := if ((97 <=? c) && (c <=? 122))%N then (c - 32)%N else c.
Definition lower (c : N) : N := if ((65 <=? c) && (c <=? 90))%N then (c + 32)%N else c.
(** Equality of characters for strncmp and strncasecmp. *)
Definition same (cs : bool) (a b : N) : bool := if cs then (a =? b)%N else (lower a =? lower b)%N.
(** strncmp(p, q, strlen(q)) == 0, the same for strncasecmp; texts do not contain NUL. *)
Fixpoint starts (cs : bool) (p q : text) : bool :=
  match q, p with
  | [], _ => true
  | _, [] => false
  | b :: q', a :: p' => same cs a b && starts cs p' q'
  end.

(** grules2.c:334-335: the key of a rule, the first character of its left hand side. *)
Definition key (cs : bool) (r : rule) : N :=
  let c := match sin r with [] => 0%N | c :: _ => c end in if cs then c else upper c.

(** grules2.c:315-355: the index tables.  [rule_index] from 1 on, first_rule, last_rule and the
    number of rules by character, and the flags of the rules (numbered from 1). *)
Record tables := { ix : list nat; first_rule : N -> Z; last_rule : N -> Z; nrules : N -> nat; indexed : nat -> bool }.
Definition upd {A} (f : N -> A) (k : N) (v : A) : N -> A := fun x => if (x =? k)%N then v else f x.
Definition mark (f : nat -> bool) (k : nat) : nat -> bool := fun x => (x =? k)%nat || f x.
Definition tables0 : tables :=
  {| ix := []; first_rule := fun _ => 0%Z; last_rule := fun _ => (-1)%Z; nrules := fun _ => 0%nat; indexed := fun _ => false |}.
(** grules2.c:347-355: the later rules with the same key; [i2] is the number of the first of [rs]. *)
Fixpoint index_later (cs : bool) (k : N) (rs : list rule) (i2 : nat) (t : tables) : tables :=
  match rs with
  | [] => t
  | r :: rest =>
    index_later cs k rest (S i2)
      (if negb (indexed t i2) && (key cs r =? k)%N then
         {| ix := ix t ++ [i2]; first_rule := first_rule t;
            last_rule := upd (last_rule t) k (Z.of_nat (S (length (ix t))));
            nrules := upd (nrules t) k (S (nrules t k)); indexed := mark (indexed t) i2 |}
       else t)
  end.
(** grules2.c:333-355 *)
Fixpoint index_rules (cs : bool) (rs : list rule) (i : nat) (t : tables) : tables :=
  match rs with
  | [] => t
  | r :: rest =>
    let k := key cs r in
    index_rules cs rest (S i)
      (if (nrules t k =? 0)%nat then
         let j := Z.of_nat (S (length (ix t))) in
         index_later cs k rest (S i)
           {| ix := ix t ++ [i]; first_rule := upd (first_rule t) k j; last_rule := upd (last_rule t) k j;
              nrules := upd (nrules t) k (S (nrules t k)); indexed := mark (indexed t) i |}
       else t)
  end.
(** rulestr2.h:14-27: the rules with their tables and the two switches. *)
Record ruleset := { rules : list rule; case_sensitive : bool; copy_no_hit : bool; tabs : tables }.
Definition make_ruleset (rs : list rule) (cs copy : bool) : ruleset :=
  {| rules := rs; case_sensitive := cs; copy_no_hit := copy; tabs := index_rules cs rs 1 tables0 |}.

(** aprules2.c:46-60: the test of a rule at a position; [left] is the text before the position.
    The bytes before the beginning of the line are outside of the array. *)
Definition fires (cs : bool) (r : rule) (left right : text) : res bool :=
  if starts cs right (sin r) then
    if (length left <? length (lctx r))%nat then Undef
    else if starts cs (skipn (length left - length (lctx r)) left) (lctx r) then
      Ok (starts cs (skipn (length (sin r)) right) (rctx r))
    else Ok false
  else Ok false.
(** aprules2.c:42-72: the rules from index [j], at most [n] of them; the number of the rule that
    fires. *)
Fixpoint try_rules (s : ruleset) (n : nat) (j : Z) (left right : text) : res (option nat) :=
  match n with
  | O => Ok None
  | S m =>
    if (j <? 1)%Z then Undef else
    match nth_error (ix (tabs s)) (Z.to_nat j - 1) with
    | None => Undef
    | Some i =>
      match nth_error (rules s) (i - 1) with
      | None => Undef
      | Some r =>
        let* b := fires (case_sensitive s) r left right in
        if b : bool then Ok (Some i) else try_rules s m (j + 1) left right
      end
    end
  end.
(** aprules2.c:17-88 [apply_rules2] for the format NIST1; [cap] is the size of the output array
    (100000, rfilter1.c:34-36); the second result are the numbers of the rules that fired, of
    which val1 keeps the counts. *)
Fixpoint apply_loop (fuel cap : nat) (s : ruleset) (left right out : text) (hits : list nat) : res (text * list nat) :=
  match fuel with
  | O => NoFuel
  | S f =>
    match right with
    | [] => Ok (out, hits)
    | c :: rest =>
      let k := if case_sensitive s then c else upper c in
      let first := first_rule (tabs s) k in
      let* h := try_rules s (Z.to_nat (last_rule (tabs s) k - first + 1)) first left right in
      match h with
      | Some i =>
        match nth_error (rules s) (i - 1) with
        | None => Undef
        | Some r =>
          let out' := out ++ sout r in
          if (cap <=? length out')%nat then Undef
          else
            let n := length (sin r) in
            apply_loop f cap s (left ++ firstn n right) (skipn n right) out' (hits ++ [i])
        end
      | None =>
        let out' := if copy_no_hit s then out ++ [c] else out in
        if (cap <=? length out')%nat then Undef
        else apply_loop f cap s (left ++ [c]) rest out' hits
      end
    end
  end.
Definition apply_rules2 (cap : nat) (s : ruleset) (line : text) : res (text * list nat) :=
  apply_loop (S (length line)) cap s [] line [] [].
