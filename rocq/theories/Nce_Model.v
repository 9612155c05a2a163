(** Normalised cross entropy of confidence scores: [compute_SCORE_nce] in /repo/src/sclite/scores.c.

    Confidences are exact fractions, the sums are real numbers; [None] stands for a double that is not a
    number (0 / 0 or 0 times the logarithm of 0).  M_LOG2E is the exact 1 / ln 2. *)
From Coq Require Import List ZArith QArith Reals Qreals Arith Bool.
Import ListNotations.
Local Open Scope R_scope.

(** path.h:1-6: the verdict of a step; merges and splits are [Other] *)
Inductive verdict := Corr | Sub | Ins | Del | Other.
(** a step of a path: its verdict, whether the value of the hypothesis word is empty, its confidence *)
Record step := { t_eval : verdict; t_empty : bool; t_conf : Q }.
(** sctk.h:91-113 [GRP] *)
Record group := { u_corr : nat; u_sub : nat; u_ins : nat; u_paths : list (list step) }.

Definition log2e : R := / ln 2.
(** scores.c:1883-1887: floor and ceiling *)
Definition clip (x : Q) : Q :=
  let x := if negb (Qle_bool (1 # 10000000) x) then (1 # 10000000)%Q else x in
  if negb (Qle_bool x (9999999 # 10000000)) then (9999999 # 10000000)%Q else x.
(** the variables [n_words], [sum_c_spk], [sum_i_spk] and [conf_not_in_range] *)
Record state := { a_words : nat; a_corr : R; a_inc : R; a_out : nat }.
(** scores.c:1876-1893 *)
Definition add_step (s : state) (t : step) : state :=
  match t_eval t with
  | Del => s
  | v =>
      if t_empty t then s
      else
        let out := if negb (Qle_bool 0 (t_conf t)) || negb (Qle_bool (t_conf t) 1) then (a_out s + 1)%nat else a_out s in
        let conf := clip (t_conf t) in
        match v with
        | Corr => {| a_words := a_words s + 1; a_corr := a_corr s + ln (Q2R conf) * log2e; a_inc := a_inc s; a_out := out |}
        | _ => {| a_words := a_words s + 1; a_corr := a_corr s; a_inc := a_inc s + ln (1 - Q2R conf) * log2e; a_out := out |}
        end
  end.
(** scores.c:1871-1895: all paths of a speaker *)
Definition add_paths (s : state) (ps : list (list step)) : state := fold_left (fun s p => fold_left add_step p s) ps s.
(** scores.c:1897-1902, 1912-1915: p = n / (m + n) and the entropy; not a number if [n] or [m] is 0 *)
Definition entropy (n m : nat) : option R :=
  if (n =? 0)%nat || (m =? 0)%nat then None
  else
    let p := INR n / INR (m + n) in
    Some (- (INR n * ln p * log2e + INR m * ln (1 - p) * log2e)).
Definition quotient (h : option R) (c i : R) : option R :=
  match h with Some h => Some ((h + c + i) / h) | None => None end.
(** scores.c:1867-1911: the loop over the speakers, with [sum_c_sys] and [sum_i_sys] *)
Fixpoint speakers (gs : list group) (c i : R) (out : nat) : list (option R) * R * R * nat :=
  match gs with
  | [] => ([], c, i, out)
  | g :: r =>
      let s := add_paths {| a_words := 0; a_corr := 0; a_inc := 0; a_out := out |} (u_paths g) in
      if (0 <? a_words s)%nat then
        let nce := quotient (entropy (u_corr g) (u_sub g + u_ins g)) (a_corr s) (a_inc s) in
        let '(l, c, i, out) := speakers r (c + a_corr s) (i + a_inc s) (a_out s) in (nce :: l, c, i, out)
      else
        let '(l, c, i, out) := speakers r c i (a_out s) in (Some 0 :: l, c, i, out)
  end.
(** scores.c:1839-1920: the values of the speakers, of the system, and the two numbers of the warning *)
Definition nce (gs : list group) : list (option R) * option R * nat * nat :=
  let corr := list_sum (map u_corr gs) in
  let sub := list_sum (map u_sub gs) in
  let ins := list_sum (map u_ins gs) in
  let '(l, c, i, out) := speakers gs 0 0 0 in
  (l, quotient (entropy corr (sub + ins)) c i, out, (corr + sub + ins)%nat).
