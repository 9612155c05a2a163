(** Model of the run of the text filter, /repo/src/rfilter1/rfilter1.c:28-84 [main], for debug levels up to 1.

    What is simplified: reading the rules (grules2.c, [Rfilter_Model]) is given: a rule set or an error.  Messages on the
    standard error and the dump of the rules are left out.  What was written before undefined behaviour is not recorded. *)
From Coq Require Import List NArith ZArith Arith Bool.
From Verif Require Import Base Rfilter_Model.
Import ListNotations.
Local Open Scope res_scope.

(** rfilter1.c:32: MAX_INPUT_REC *)
Definition max_input_rec : nat := N.to_nat 100000.
(** rfilter1.c:61, fgets: at most [n] bytes, up to a newline; what is left *)
Fixpoint take_line (n : nat) (f : text) : text * text :=
  match n, f with
  | O, _ => ([], f)
  | _, [] => ([], [])
  | S n, c :: f => if (c =? 10)%N then ([c], f) else let '(a, b) := take_line n f in (c :: a, b)
  end.
(** rfilter1.c:61: the array as a C string *)
Fixpoint cut0 (l : text) : text := match l with [] => [] | c :: l => if (c =? 0)%N then [] else c :: cut0 l end.
(** rfilter1.c:61-74: the loop over the records; rfilter1.c:62 looks at the byte before the end of the string *)
Fixpoint loop (fuel max : nat) (s : ruleset) (f : text) : res text :=
  match fuel with
  | O => NoFuel
  | S k =>
      match f with
      | [] => Ok []
      | _ =>
          let '(l, rest) := take_line (max - 1) f in
          match cut0 l with
          | [] => Undef
          | pa => let* o := apply_rules2 max s pa in let* r := loop k max s rest in Ok (fst o ++ r)
          end
      end
  end.
(** rfilter1.c:61-74 *)
Definition run (max : nat) (s : ruleset) (f : text) : res text := loop (S (length f)) max s f.
(** rfilter1.c:42-81: what the run ends with: the usage (2), an error of the rules (3) or the filtered text (0) *)
Inductive ending := Usage | Bad_rules | Filtered (out : text).
Definition main (args : list text) (rules : text -> option ruleset) (input : text) : res ending :=
  match args with
  | [] => Ok Usage
  | a :: _ => match rules a with
              | None => Ok Bad_rules
              | Some s => let* o := run max_input_rec s input in Ok (Filtered o)
              end
  end.
