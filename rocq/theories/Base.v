(** Shared outcome type: a normal result, a call to [exit(...)], an undefined behaviour of
    the C/C++ program, or exhaustion of the model's recursion fuel. *)
From Coq Require Import List ZArith.

Inductive res (A : Type) : Type :=
| Ok (a : A)
| Exit
| Undef
| NoFuel.
Arguments Ok {A} a.
Arguments Exit {A}.
Arguments Undef {A}.
Arguments NoFuel {A}.

Definition rbind {A B} (x : res A) (f : A -> res B) : res B :=
  match x with
  | Ok a => f a
  | Exit => Exit
  | Undef => Undef
  | NoFuel => NoFuel
  end.

Declare Scope res_scope.
Notation "'let*' p := e 'in' f" := (rbind e (fun p => f))
  (at level 200, p pattern, e at level 100, f at level 200) : res_scope.
