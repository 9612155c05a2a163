(** Model of the voting of ROVER, /repo/src/sclite/rover.c. *)
From Coq Require Import List Arith ZArith NArith QArith Qminmax Bool.
From Verif Require Import Base Text_Model Word_Model.
Import ListNotations.
Local Open Scope res_scope.

(** word.h:5-24: a word with its confidence.  Doubles are exact rationals, times are in
    thousandths of a second as in Word_Model. *)
Record vword := { v_word : word; v_conf : Q }.

(** rover.c:36-43 *)
Inductive meth := M_null | M_meth1 | M_oracle | M_maxconf | M_meth1a | M_maxconfa | M_putat | M_avgconf.

(** rover.c:58-71 [mfalign_best_seq_struct]: the fields that steer the choice. *)
Record sel := { s_null : vword; s_alpha : Q; s_ctm : bool; s_putat : bool; s_meth : meth }.

(** network.h: an arc that leaves a node, by the node it leads to and its word. *)
Definition varc := (nat * vword)%type.
Definition a_word (a : varc) : vword := snd a.

(** rover.c:309-313: one index of the arrays wlist, word_occ, word_conf_sum, word_max_conf, word_t1, word_t2. *)
Record entry := { n_word : vword; n_occ : nat; n_sum : Q; n_max : Q; n_t1 : Z; n_t2 : Z }.

(** Doubles that may come out of a division by zero. *)
Inductive dbl := Fin (q : Q) | NaN | Inf (positive : bool).

(** rover.c:373-376: index of the first entry whose word is equal; the length when there is none. *)
Fixpoint search (e : enc) (l : list entry) (w : vword) : res nat :=
  match l with
  | [] => Ok 0%nat
  | x :: r =>
    let* z := equal_word e (Some (v_word (n_word x))) (Some (v_word w)) in
    if (z =? 0)%Z then Ok 0%nat else let* i := search e r w in Ok (S i)
  end.
(** rover.c:387-389, 413-415 *)
Definition count_in (x : entry) (w : vword) : entry :=
  {| n_word := n_word x; n_occ := S (n_occ x); n_sum := (n_sum x + v_conf w)%Q; n_max := Qmax (n_max x) (v_conf w);
     n_t1 := (n_t1 x + w_t1 (v_word w))%Z; n_t2 := (n_t2 x + w_t2 (v_word w))%Z |}.
Definition fresh (w : vword) : entry := {| n_word := w; n_occ := 0; n_sum := 0; n_max := 0; n_t1 := 0; n_t2 := 0 |}.
Fixpoint count_at (l : list entry) (i : nat) (w : vword) : list entry :=
  match l, i with
  | [], _ => [count_in (fresh w) w]
  | x :: r, O => count_in x w :: r
  | x :: r, S j => x :: count_at r j w
  end.
(** rover.c:363-420: the loop over the arcs; [to] is the node the first one leads to.
    [max_word] is 50; the entry of index 49 is refused. *)
Fixpoint tally (e : enc) (to : nat) (arcs : list varc) (l : list entry) (total : Q) : res (list entry * Q) :=
  match arcs with
  | [] => Ok (l, total)
  | (t, w) :: r =>
    if negb (t =? to)%nat then Exit
    else
      let* i := search e l w in
      if ((i =? List.length l) && (i =? 49))%nat then Exit
      else tally e to r (count_at l i w) (total + v_conf w)%Q
  end.

(** rover.c:425-456: the score of an entry; [narc] is the number of arcs. *)
Definition qn (n : nat) : Q := inject_Z (Z.of_nat n).
Definition score (s : sel) (narc : nat) (total : Q) (x : entry) : res dbl :=
  let freq := (s_alpha s * (qn (n_occ x) / qn narc))%Q in
  match s_meth s with
  | M_meth1 | M_meth1a | M_oracle => Ok (Fin (freq + (1 - s_alpha s) * (n_sum x / qn (n_occ x)))%Q)
  | M_maxconf | M_maxconfa => Ok (Fin (freq + (1 - s_alpha s) * n_max x)%Q)
  | M_avgconf =>
    let num := ((1 - s_alpha s) * n_sum x)%Q in
    if Qeq_bool total 0 then
      Ok (if Qeq_bool num 0 then NaN else Inf (negb (Qle_bool num 0)))
    else Ok (Fin (freq + num / total)%Q)
  | M_putat => Ok (Fin 0)
  | M_null => Exit
  end.
(** The comparison [>] of doubles. *)
Definition gt (a b : dbl) : bool :=
  match a, b with
  | Fin x, Fin y => negb (Qle_bool x y)
  | Inf true, Fin _ | Fin _, Inf false | Inf true, Inf false => true
  | _, _ => false
  end.
(** rover.c:421-462: the index of the best entry so far, if any, and its score. *)
Fixpoint choose (s : sel) (narc : nat) (total : Q) (l : list entry) (i : nat) (best : option nat) (top : dbl) : res (option nat) :=
  match l with
  | [] => Ok best
  | x :: r =>
    let* d := score s narc total x in
    if gt d top then choose s narc total r (S i) (Some i) d
    else choose s narc total r (S i) best top
  end.

(** A line of the output: rover.c:510-515, 521-526 (start, duration in thousandths, text,
    confidence), 490-505 for the putative format (the arcs themselves). *)
Record line := { l_t1 : Q; l_dur : Q; l_text : list N; l_conf : Q }.
Inductive written :=
| Nothing
| Line (l : line)
| Alternatives (l : list line)
| Putative (l : list vword).
Definition line_of (x : entry) : line :=
  {| l_t1 := (inject_Z (n_t1 x) / qn (n_occ x))%Q;
     l_dur := (inject_Z (n_t2 x - n_t1 x) / qn (n_occ x))%Q;
     l_text := w_value (v_word (n_word x));
     l_conf := (n_sum x / qn (n_occ x))%Q |}.
(** rover.c:305-527 [print_linear] for a node other than STOP, without debugging output; the
    counter of ties is only used in code that is not compiled. *)
Definition print_linear (e : enc) (s : sel) (arcs : list varc) : res written :=
  match arcs with
  | [] =>
    (* no entry at all: "No best word found" *)
    Exit
  | (to, _) :: _ =>
    let* (l, total) := tally e to arcs [] 0%Q in
    let* best := choose s (List.length arcs) total l 0 None (Fin (-1)) in
    match best with
    | None => Exit
    | Some b =>
      if s_putat s then Ok (Putative (map a_word arcs))
      else if s_ctm s then
        match s_meth s with
        | M_oracle => Ok (Alternatives (map line_of l))
        | M_putat | M_null => Exit
        | _ =>
          match nth_error l b with
          | None => Undef
          | Some x =>
            let* z := equal_word e (Some (v_word (n_word x))) (Some (v_word (s_null s))) in
            Ok (if (z =? 0)%Z then Nothing else Line (line_of x))
          end
        end
      else Ok Nothing
    end
  end.
