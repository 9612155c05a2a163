(** Vocabulary of the property of networks built from time marked words. *)
From Coq Require Import List NArith ZArith Bool.
From Verif Require Import Base Chan_Model Chan_Spec Wnet_Model.
Import ListNotations.
Local Open Scope Z_scope.

(** The body of an alternation: word lists separated by "<ALT>". *)
Inductive Alternatives : list word -> list (list word) -> Prop :=
| a_one a : Forall (fun w => ~ alt_mark w) a -> Alternatives a [a]
| a_more a s r rs : Forall (fun w => ~ alt_mark w) a -> says ALT_SEP (sp s) -> Alternatives r rs ->
    Alternatives (a ++ s :: r) (a :: rs).

(** Only the last alternative may be empty, and not if it is the only one. *)
Definition proper (alts : list (list word)) : Prop :=
  exists init a, alts = init ++ [a] /\ Forall (fun x => x <> []) init /\ (init = [] -> a <> []).

(** In the order of the text, or reversed. *)
Definition directed {A} (ltr : bool) (l : list A) : list A := if ltr then l else rev l.
(** An empty alternative is the null word. *)
Definition alternative (ltr : bool) (a : list word) : list (option word) :=
  match a with [] => [None] | _ => map Some (directed ltr a) end.

(** What a unit with its flags "ignore" contributes. *)
Inductive Contributes (ltr : bool) : unit -> list bool -> list part -> Prop :=
| c_word w : Contributes ltr (Word w) [false] [Arc w]
| c_ignored w : Contributes ltr (Word w) [true] []
| c_alts b body e alts : Alternatives body alts -> proper alts ->
    Contributes ltr (Alts b body e) (repeat false (S (S (length body)))) [Par (map (alternative ltr) alts)].
Inductive Contribute (ltr : bool) : list unit -> list (list bool) -> list part -> Prop :=
| cs_nil : Contribute ltr [] [] []
| cs_cons u f p us fs ps : Contributes ltr u f p -> Contribute ltr us fs ps -> Contribute ltr (u :: us) (f :: fs) (p ++ ps).

(** The words of a file as read, with their flags. *)
Fixpoint tag (l : list mword) (ig : list bool) : list iword :=
  match l, ig with
  | w :: r, i :: s => {| the_mword := w; ignore := i |} :: tag r s
  | _, _ => []
  end.
