(** The detailed reports of sclite, /repo/src/sclite/sc_dtl.c. *)
From Coq Require Import List Arith ZArith NArith QArith Bool.
From Verif Require Import Base Text_Model NetDp_Model Word_Model Order_Model Path_Model Summ_Model Scores_Model Alex_Model.
Import ListNotations.
Local Open Scope res_scope.
Local Open Scope nat_scope.

(** the value of the word a step points to; a null pointer is followed otherwise *)
Definition value_of (w : option word) : res (list N) := match w with Some w => Ok (w_value w) | None => Undef end.

(** rsprintf.c:9 and 30-36, with the format "%s ==> %s": the text is written into 10000 bytes, terminator
    included, before anything is checked.  (The check that follows cannot be reached without the text
    having been written past the end.) *)
Definition buffer_size : Z := 10000%Z.
Definition pair_text (a b : list N) : res (list N) :=
  let t := a ++ [32; 61; 61; 62; 32]%N ++ b in
  if (Z.of_nat (length t) <? buffer_size)%Z then Ok t else Undef.

(** the five lists *)
Inductive which := Pairs | Insertions | Deletions | Substitutions | Misrecognized.
(** sc_dtl.c:466-467, 481-482, 496-500, 515-516, 531-532: the string that a step adds to a list, if any *)
Definition entry (k : which) (s : wstep) : res (option (list N)) :=
  match k, s with
  | Insertions, (a, b, PIns) => let* v := value_of b in Ok (Some v)
  | Deletions, (a, b, PDel) => let* v := value_of a in Ok (Some v)
  | Pairs, (a, b, PSub) => let* v := value_of a in let* w := value_of b in let* t := pair_text v w in Ok (Some t)
  | Substitutions, (a, b, PSub) => let* v := value_of a in Ok (Some v)
  | Misrecognized, (a, b, PSub) => let* v := value_of b in Ok (Some v)
  | _, _ => Ok None
  end.
Fixpoint locate_steps (e : enc) (k : which) (x : lex) (l : list wstep) : res lex :=
  match l with
  | [] => Ok x
  | s :: r =>
      let* o := entry k s in
      let* x := match o with Some t => lex_count e x t | None => Ok x end in
      locate_steps e k x r
  end.
(** sc_dtl.c:459-538 [locate_insertions], [locate_deletions], [locate_confusion_pairs],
    [locate_substitutions], [locate_misrecognized]: the paths of one group *)
Fixpoint locate (e : enc) (k : which) (x : lex) (g : grp) (n p : nat) : res lex :=
  match n with
  | O => Ok x
  | S n' =>
      let* y := kept g p in
      let* x := locate_steps e k x (s_steps y) in
      locate e k x g n' (p + 1)
  end.
(** sc_dtl.c:422-427: all the groups *)
Fixpoint locate_all (e : enc) (k : which) (x : lex) (gs : list grp) : res lex :=
  match gs with
  | [] => Ok x
  | g :: r => let* x := locate e k x g (p_num (g_path g)) 0 in locate_all e k x r
  end.

(** sc_dtl.c:138-143: the steps of a path by kind *)
Record tally := { y_c : nat; y_s : nat; y_n : nat; y_d : nat }.
Fixpoint tally_of (t : tally) (l : list wstep) : tally :=
  match l with
  | [] => t
  | (_, _, ev) :: r =>
      tally_of (match ev with
                | PCorr => {| y_c := y_c t + 1; y_s := y_s t; y_n := y_n t; y_d := y_d t |}
                | PSub => {| y_c := y_c t; y_s := y_s t + 1; y_n := y_n t; y_d := y_d t |}
                | PIns => {| y_c := y_c t; y_s := y_s t; y_n := y_n t + 1; y_d := y_d t |}
                | PDel => {| y_c := y_c t; y_s := y_s t; y_n := y_n t; y_d := y_d t + 1 |}
                end) r
  end.
Definition tally0 : tally := {| y_c := 0; y_s := 0; y_n := 0; y_d := 0 |}.
(** sc_dtl.c:134-147: sentences with substitutions, with insertions, with deletions *)
Fixpoint sentences_with (g : grp) (n p : nat) (t : nat * nat * nat) : res (nat * nat * nat) :=
  match n with
  | O => Ok t
  | S n' =>
      let* y := kept g p in
      let c := tally_of tally0 (s_steps y) in
      let '(wsub, wins, wdel) := t in
      sentences_with g n' (p + 1)
        (if 0 <? y_s c then wsub + 1 else wsub, if 0 <? y_n c then wins + 1 else wins, if 0 <? y_d c then wdel + 1 else wdel)
  end.
(** sc_dtl.c:283-305: the same over all the groups, and the counters of the groups *)
Record sums := { m_c : nat; m_s : nat; m_d : nat; m_n : nat; m_nsent : nat; m_serr : nat }.
Definition sums0 : sums := {| m_c := 0; m_s := 0; m_d := 0; m_n := 0; m_nsent := 0; m_serr := 0 |}.
Fixpoint over_groups (gs : list grp) (t : nat * nat * nat) (m : sums) : res (nat * nat * nat * sums) :=
  match gs with
  | [] => Ok (t, m)
  | g :: r =>
      let* t := sentences_with g (p_num (g_path g)) 0 t in
      over_groups r t {| m_c := m_c m + g_corr g; m_s := m_s m + g_sub g; m_d := m_d m + g_del g; m_n := m_n m + g_ins g;
                         m_nsent := m_nsent m + g_nsent g; m_serr := m_serr m + g_serr g |}
  end.

(** the numbers of a report.  Percentages are exact instead of rounded to one digit (for the rounding see
    [Summ_Model.f_round]); [None] is the text UNDEF. *)
Record report := {
  d_sentences : nat;
  d_with : list (nat * Q);          (* with errors, substitutions, deletions, insertions *)
  d_words : list (nat * option Q);  (* total error, correct, substitution, deletions, insertions *)
  d_accuracy : option Q;
  d_refs : nat; d_hyps : nat; d_aligned : nat;
  d_pairs : listing; d_ins : listing; d_del : listing; d_sub : listing; d_false : listing
}.
Section Report.
Variable qsort : (nat -> nat -> Z) -> list nat -> list nat.

(** sc_dtl.c:221-226 and 421-427: one list; the first size is 200 *)
Definition list_of (e : enc) (k : which) (gs : list grp) : res listing :=
  let* x := locate_all e k (lex_init 200) gs in lex_printout qsort x 1%Z.
(** sc_dtl.c:158-262 and 319-454: what is written *)
Definition write_report (e : enc) (gs : list grp) (t : nat * nat * nat) (m : sums) : res report :=
  let '(wsub, wins, wdel) := t in
  let r := m_c m + m_s m + m_d m in
  let err := m_s m + m_d m + m_n m in
  let snt n := (n, pct (nq n) (nq (m_nsent m))) in
  let wrd n := (n, if 0 <? r then Some (pct (nq n) (nq r)) else None) in
  let* l1 := list_of e Pairs gs in
  let* l2 := list_of e Insertions gs in
  let* l3 := list_of e Deletions gs in
  let* l4 := list_of e Substitutions gs in
  let* l5 := list_of e Misrecognized gs in
  Ok {| d_sentences := m_nsent m;
        d_with := [snt (m_serr m); snt wsub; snt wdel; snt wins];
        d_words := [wrd err; wrd (m_c m); wrd (m_s m); wrd (m_d m); wrd (m_n m)];
        d_accuracy := if 0 <? r then Some (100 - pct (nq err) (nq r))%Q else None;
        d_refs := r; d_hyps := m_c m + m_s m + m_n m; d_aligned := m_c m + m_s m + m_n m + m_d m;
        d_pairs := l1; d_ins := l2; d_del := l3; d_sub := l4; d_false := l5 |}.
(** sc_dtl.c:270-456 [score_dtl_overall] *)
Definition dtl_overall (e : enc) (gs : list grp) : res report :=
  let* (t, m) := over_groups gs (0, 0, 0) sums0 in
  write_report e gs t m.
(** sc_dtl.c:118-268 [score_dtl_spkr], the report of one speaker *)
Definition dtl_spkr (e : enc) (g : grp) : res report :=
  let* t := sentences_with g (p_num (g_path g)) 0 (0, 0, 0) in
  write_report e [g] t {| m_c := g_corr g; m_s := g_sub g; m_d := g_del g; m_n := g_ins g; m_nsent := g_nsent g; m_serr := g_serr g |}.
End Report.

(** ** The report sentence by sentence *)
(** the numbers written for a sentence: of the sentence and, in parentheses, of the speaker so far *)
Record sentence_line := { z_c : nat * nat; z_s : nat * nat; z_d : nat * nat; z_n : nat * nat; z_err : nat * nat;
  z_pct : list (option Q); z_ref : nat * nat; z_hyp : nat * nat; z_aligned : nat * nat }.
(** sc_dtl.c:44-112 *)
Fixpoint dtl_sentences (g : grp) (n p : nat) (sp : tally) (sp_nw : nat) : res (list sentence_line) :=
  match n with
  | O => Ok []
  | S n' =>
      let* y := kept g p in
      let t := tally_of tally0 (s_steps y) in
      let r := y_c t + y_s t + y_d t in
      let nw := length (s_steps y) in
      let sp := {| y_c := y_c sp + y_c t; y_s := y_s sp + y_s t; y_n := y_n sp + y_n t; y_d := y_d sp + y_d t |} in
      let sp_nw := sp_nw + nw in
      let* rest := dtl_sentences g n' (p + 1) sp sp_nw in
      Ok ({| z_c := (y_c t, y_c sp); z_s := (y_s t, y_s sp); z_d := (y_d t, y_d sp); z_n := (y_n t, y_n sp);
             z_err := (y_s t + y_d t + y_n t, y_s sp + y_d sp + y_n sp);
             z_pct := map (fun n => if 0 <? r then Some (pct (nq n) (nq r)) else None)
                          [y_c t; y_s t; y_d t; y_n t; y_s t + y_d t + y_n t];
             z_ref := (r, y_c sp + y_s sp + y_d sp); z_hyp := (y_c t + y_s t + y_n t, y_c sp + y_s sp + y_n sp);
             z_aligned := (nw, sp_nw) |} :: rest)
  end.
(** sc_dtl.c:11-116 [score_dtl_sent], the report of one speaker *)
Definition dtl_sent (g : grp) : res (list sentence_line) := dtl_sentences g (p_num (g_path g)) 0 tally0 0.
