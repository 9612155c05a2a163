(** Model of the word weighted scoring, /repo/src/sclite/wwscr_f.c:26-253, 461-544.

    What is simplified: weights are exact numbers in thousandths and percentages exact fractions; the
    evaluations of merges and splits, which no alignment makes, and their sums, always zero, are left
    out of the steps but kept in the rows; the messages for debugging, the file names of the reports,
    the line "Vale ..." printed for each speaker and the layout of the tables (Rpg model) are left out. *)
From Coq Require Import String List Arith ZArith NArith QArith Bool.
From Verif Require Import Base Text_Model Word_Model Order_Model Store_Model NetDp_Model Path_Model Wwl_Model.
From Verif Require Summ_Model.
Import ListNotations.
Local Open Scope res_scope.
Local Open Scope nat_scope.

(** sctk.h SCORES: the speakers and the paths of their sentences *)
Definition scores := list (list N * list (list wstep)).
(** wwscr_f.h:22-32: the sums *)
Record sums := { u_ref : Z; u_corr : Z; u_sub : Z; u_ins : Z; u_del : Z }.
Definition zero : sums := {| u_ref := 0; u_corr := 0; u_sub := 0; u_ins := 0; u_del := 0 |}%Z.
(** wwscr_f.c:522-523, 529-533 *)
Definition plus (a b : sums) : sums :=
  {| u_ref := u_ref a + u_ref b; u_corr := u_corr a + u_corr b; u_sub := u_sub a + u_sub b;
     u_ins := u_ins a + u_ins b; u_del := u_del a + u_del b |}%Z.
(** wwscr_f.h:27-32 [WWL_FUNC]: the title, the sums over all and for each speaker *)
Record func := { f_title : list N; f_all : sums; f_spkr : list (list N * sums) }.

Section Score.
(** the function given to [do_weighted_score] *)
Variable W : list N -> res Z.
(** the value of the word a step points to *)
Definition value (w : option word) : res (list N) := match w with Some w => Ok (w_value w) | None => Undef end.
Definition wt (w : option word) : res Z := let* v := value w in W v.
(** wwscr_f.c:481-516 *)
Definition step_sums (s : wstep) (u : sums) : res sums :=
  let '(a, b, ev) := s in
  match ev with
  | PCorr =>
      let* r := wt a in
      let* h := wt a in
      Ok {| u_ref := u_ref u + r; u_corr := u_corr u + h; u_sub := u_sub u; u_ins := u_ins u; u_del := u_del u |}%Z
  | PSub =>
      let* r := wt a in
      let* h := wt b in
      Ok {| u_ref := u_ref u + r; u_corr := u_corr u; u_sub := u_sub u + (r + h); u_ins := u_ins u; u_del := u_del u |}%Z
  | PDel =>
      let* r := wt a in
      let* h := wt a in
      Ok {| u_ref := u_ref u + r; u_corr := u_corr u; u_sub := u_sub u; u_ins := u_ins u; u_del := u_del u + h |}%Z
  | PIns =>
      let* h := wt b in
      Ok {| u_ref := u_ref u; u_corr := u_corr u; u_sub := u_sub u; u_ins := u_ins u + h; u_del := u_del u |}%Z
  end.
Fixpoint path_sums (p : list wstep) (u : sums) : res sums :=
  match p with [] => Ok u | s :: r => let* u := step_sums s u in path_sums r u end.
(** wwscr_f.c:474-524 *)
Fixpoint spkr_sums (ps : list (list wstep)) (u : sums) : res sums :=
  match ps with
  | [] => Ok u
  | p :: r => let* v := path_sums p zero in spkr_sums r (plus u v)
  end.
(** wwscr_f.c:471-536 *)
Fixpoint all_sums (sc : scores) (all : sums) (spk : list (list N * sums)) : res (sums * list (list N * sums)) :=
  match sc with
  | [] => Ok (all, spk)
  | (name, ps) :: r => let* u := spkr_sums ps zero in all_sums r (plus all u) (spk ++ [(name, u)])
  end.
(** wwscr_f.c:461-544 [do_weighted_score] *)
Definition do_weighted_score (title : list N) (sc : scores) : res func :=
  let* (all, spk) := all_sums sc zero [] in
  Ok {| f_title := title; f_all := all; f_spkr := spk |}.
End Score.

(** wwscr_f.h:34-38 [WWL_SCORE]: an array with [maxfunc] cells of which [numfunc] are used *)
Record table := { t_func : list (option func); t_num : nat }.
(** wwscr_f.c:116-131 [alloc_WWL_SCORE] *)
Definition alloc (n : nat) : table := {| t_func := repeat None n; t_num := 0 |}.
(** wwscr_f.c:98-114 [expand_WWL_SCORE]; the number of speakers is copied from the first cell, which
    there must be *)
Definition expand (t : table) : res table :=
  let min := Nat.max (length (t_func t)) 1 in
  if length (t_func t) <? 1 then Undef
  else Ok {| t_func := t_func t ++ repeat None (min * 2 - length (t_func t)); t_num := t_num t |}.
(** the next cell is filled, wwscr_f.c:35-38, 51-56 *)
Definition push (t : table) (f : func) : res table :=
  let* a := Order_Model.set (t_func t) (t_num t) (Some f) in
  Ok {| t_func := a; t_num := t_num t + 1 |}.
(** wwscr_f.c:48-57: the columns of a list from [wfc] on *)
Fixpoint columns (e : enc) (sc : scores) (l : wwl) (wfc : nat) (ds : list (list N)) (t : table) : res table :=
  match ds with
  | [] => Ok t
  | d :: r =>
      let* t := if length (t_func t) <=? t_num t then expand t else Ok t in
      let* f := do_weighted_score (weight e l wfc) d sc in
      let* t := push t f in
      columns e sc l (wfc + 1) r t
  end.
(** wwscr_f.c:41-59; [load] gives what load_WWL makes of a file; [None] is the return with an error *)
Fixpoint files (e : enc) (load : list N -> res (option wwl)) (sc : scores) (fs : list (list N)) (t : table) : res (option table) :=
  match fs with
  | [] => Ok (Some t)
  | f :: r =>
      let* o := load f in
      match o with
      | None => Ok None
      | Some l => let* t := columns e sc l 0 (l_desc l) t in files e load sc r t
      end
  end.
(** wwscr_f.c:26-59 [perform_word_weighted_scoring], without the reports *)
Definition perform (e : enc) (load : list N -> res (option wwl)) (sc : scores) (one : bool) (fs : list (list N)) : res (option table) :=
  let t := alloc (length fs + (if one then 1 else 0)) in
  let* t := if one then let* f := do_weighted_score (fun _ => Ok weight_one) (bytes "Weight 1") sc in push t f else Ok t in
  files e load sc fs t.

(** the cells in use *)
Definition used (t : table) : res (list func) :=
  Alex_Model.each (fun c => match c with Some f => Ok f | None => Undef end) (firstn (t_num t) (t_func t)).
Definition zq (a b : Z) : Q := Summ_Model.pct (inject_Z a) (inject_Z b).
(** wwscr_f.c:164-172, 207-216, 237-245: errors, correct words, substitutions, deletions and
    insertions in percent of the reference *)
Definition percents (u : sums) : list Q :=
  [zq (u_sub u + 0 + u_del u + u_ins u + 0) (u_ref u); zq (u_corr u) (u_ref u); zq (u_sub u) (u_ref u);
   zq (u_del u) (u_ref u); zq (u_ins u) (u_ref u)].
(** wwscr_f.c:149-178 [make_total_summary]: the last two columns, splits and merges *)
Definition total_summary (t : table) : res (list (list N * list Q)) :=
  let* fs := used t in
  Ok (map (fun f => (f_title f, percents (f_all f) ++ [zq 0 (u_ref (f_all f)); zq 0 (u_ref (f_all f))])) fs).
(** wwscr_f.c:196-222: the rows of the speaker [s] *)
Definition spkr_rows (fs : list func) (s : nat) : res (list (list N * list N * list Q)) :=
  Alex_Model.each (fun f => let* (name, u) := Order_Model.get (f_spkr f) s in Ok (name, f_title f, percents u)) fs.
(** wwscr_f.c:180-253 [make_speaker_summary]; [n] is the number of speakers, which is read from the
    first cell *)
Definition speaker_summary (n : nat) (t : table) : res (list (list N * list N * list Q)) :=
  match t_func t with
  | [] => Undef
  | _ =>
      let* fs := used t in
      let* rows := Alex_Model.each (spkr_rows fs) (seq 0 n) in
      Ok (concat rows ++ map (fun f => (bytes "Ave", f_title f, percents (f_all f))) fs)
  end.
