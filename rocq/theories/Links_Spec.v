(** What links, flattening and speeches mean, without the loops that compute them. *)
From Coq Require Import List ZArith Arith Bool.
From Verif Require Import Base Graph_Model Graph_Spec Links_Model.
Import ListNotations.

(** [b] is recorded as successor of [a] as often as [a] is recorded as predecessor of [b]. *)
Definition mutual (h : links) : Prop :=
  forall a b, count_occ Nat.eq_dec (nxt h a) b = count_occ Nat.eq_dec (prc h b) a.

Definition edge (h : links) (a b : nat) : Prop := In b (nxt h a).

(** The operations a program may perform on links. *)
Inductive link_op := OLink (a b : nat) | OUnlink (a b : nat)
  | OAttach (lasts firsts : list nat)
  | OReplace (tm : times) (s : segment) (t : nat) (starts ends : list nat).

Definition link_run1 (h : links) (o : link_op) : res links :=
  match o with
  | OLink a b => Ok (link_tokens h a b)
  | OUnlink a b => unlink_tokens h a b
  | OAttach ls fs => Ok (attach h ls fs)
  | OReplace tm s t starts ends =>
      match replace_token tm h s t starts ends with
      | Ok (h', _) => Ok h' | Exit => Exit | Undef => Undef | NoFuel => NoFuel
      end
  end.
Fixpoint link_run (h : links) (l : list link_op) : res links :=
  match l with
  | [] => Ok h
  | o :: r => match link_run1 h o with Ok h' => link_run h' r | Exit => Exit | Undef => Undef | NoFuel => NoFuel end
  end.

(** Times of the new tokens fit the segment. *)
Definition fits_begin (tm : times) (s : segment) (t : nat) : Prop :=
  tk_begin tm t = (-1)%Z \/ (sg_begin s <= tk_begin tm t)%Z.
Definition fits_end (tm : times) (s : segment) (t : nat) : Prop :=
  tk_end tm t = (-1)%Z \/ (tk_end tm t <= sg_end s)%Z.

(** [c] can be reached from [a] along links without going through a last token. *)
Inductive reach (nx : nat -> list nat) (lasts : list nat) (a : nat) : nat -> Prop :=
| reach_refl : reach nx lasts a a
| reach_step : forall b c, reach nx lasts a b -> ~ In b lasts -> In c (nx b) -> reach nx lasts a c.

(** A token of the segment. *)
Definition seg_token (nx : nat -> list nat) (s : segment) (t : nat) : Prop :=
  exists f, In f (sg_first s) /\ reach nx (sg_last s) f t.

(** [x] occurs in [l] and some element of [P] occurs before it. *)
Definition after_one (l : list nat) (P : nat -> Prop) (x : nat) : Prop :=
  exists l1 l2 l3 p, l = l1 ++ p :: l2 ++ x :: l3 /\ P p.

(** Every occurrence of [x] in [l] has every element of [P] before it. *)
Definition after_all (l : list nat) (P : nat -> Prop) (x : nat) : Prop :=
  forall l1 l2, l = l1 ++ x :: l2 -> forall p, P p -> In p l1.

(** The tokens are closed under links. *)
Definition closed (nx : nat -> list nat) (U : list nat) : Prop :=
  forall a, In a U -> incl (nx a) U.

(** A speech as the parsers are meant to leave it: a predecessor of a token is a token of the
    same segment, not a last one, or the token is a first token and the predecessor a last
    token of the previous segment that is not empty; every first token is linked with every
    last token of that previous segment; the last tokens belong to their segment.
    [prev] is [None] before the first non-empty segment. *)
Fixpoint linked_speech (h : links) (prev : option (list nat)) (segs : list segment) : Prop :=
  match segs with
  | [] => True
  | s :: r =>
      if seg_empty s then sg_first s = [] /\ linked_speech h prev r
      else
        (forall t p, seg_token (nxt h) s t -> In p (prc h t) ->
           (seg_token (nxt h) s p /\ ~ In p (sg_last s)) \/
           (In t (sg_first s) /\ match prev with None => True | Some ls => In p ls end)) /\
        match prev with
        | None => True
        | Some ls => ls <> [] /\ forall t p, In t (sg_first s) -> In p ls -> edge h p t
        end /\
        sg_last s <> [] /\ (forall t, In t (sg_last s) -> seg_token (nxt h) s t) /\
        linked_speech h (Some (sg_last s)) r
  end.

(** Tokens of a speech. *)
Definition speech_token (nx : nat -> list nat) (segs : list segment) (t : nat) : Prop :=
  exists s, In s segs /\ seg_token nx s t.

(** A chain of tokens [a -> ...], each linked to the following one and to nothing else. *)
Fixpoint chain (nx : nat -> list nat) (a : nat) (l : list nat) : Prop :=
  match l with
  | [] => True
  | b :: r => nx a = [b] /\ chain nx b r
  end.
