(** The characters of a text with spaces between them. *)
From Coq Require Import List NArith Arith Bool.
From Verif Require Import Text_Model Text_Spec Case_Model.
Import ListNotations.

(** The units of a text: its characters, but in the profile of Guarani a letter G with the
    combining tilde after it is one unit. *)
Definition tilde_g (g t : list N) : Prop := (g = [71%N] \/ g = [103%N]) /\ t = [0xCC; 0x83]%N.
Inductive units (p : profile) : list (list N) -> list (list N) -> Prop :=
| units_nil : units p [] []
| units_g : forall g t cs us, p = Guarani -> tilde_g g t -> units p cs us -> units p (g :: t :: cs) ((g ++ t) :: us)
| units_char : forall c cs us, (p = Guarani -> forall t cs', cs = t :: cs' -> ~ tilde_g c t) -> units p cs us ->
    units p (c :: cs) (c :: us).

(** The hyphens can be left out. *)
Definition is_hyphen (u : list N) : bool := match u with [b] => (b =? 45)%N | _ => false end.
Definition kept (del_hyphen : bool) (us : list (list N)) : list (list N) :=
  filter (fun u => negb (del_hyphen && is_hyphen u)) us.

Definition is_blank (u : list N) : bool := match u with [b] => (b =? 32)%N | _ => false end.
(** The ASCII units; in the encodings of one byte every one is. *)
Definition ascii_unit (e : enc) (u : list N) : bool :=
  match e with ASCII | EXTASCII => true | _ => Nat.eqb (length u) 1 end.
(** A blank comes between two neighbours unless one of them is a blank already or, when ASCII
    characters stay together, both are ASCII. *)
Definition apart (e : enc) (no_ascii : bool) (x y : list N) : bool :=
  negb (is_blank x) && negb (is_blank y) && negb (no_ascii && ascii_unit e x && ascii_unit e y).
Fixpoint spread (e : enc) (no_ascii : bool) (us : list (list N)) : list N :=
  match us with
  | [] => []
  | x :: r => x ++ match r with
                   | [] => []
                   | y :: _ => (if apart e no_ascii x y then [32%N] else []) ++ spread e no_ascii r
                   end
  end.
