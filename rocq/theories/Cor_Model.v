(** The correspondence of several scored systems and their common error analysis ("lattice"),
    /repo/src/sclite/corresp.c, used for the multi-system alignments of sc_stats. *)
From Coq Require Import List Arith ZArith NArith QArith Bool.
From Verif Require Import Base Text_Model NetDp_Model Word_Model Order_Model Path_Model Scores_Model Alex_Model Dtl_Model.
Import ListNotations.
Local Open Scope res_scope.
Local Open Scope nat_scope.

(** sctk.h SCORES, as far as it is used here: the groups in use, each with its name and the paths in
    use.  (For the arrays behind them see [Scores_Model].) *)
Definition group : Type := list N * list sentence.
Definition system : Type := list group.

(** corresp.c:149-157: the first group of a system that has the name *)
Fixpoint find_name (name : list N) (gs : system) (gr : nat) : option nat :=
  match gs with
  | [] => None
  | g :: r => if same name (fst g) then Some gr else find_name name r (gr + 1)
  end.
(** corresp.c:148-160: the same in all the systems from the second on *)
Fixpoint find_all (name : list N) (ss : list system) : option (list nat) :=
  match ss with
  | [] => Some []
  | s :: r =>
      match find_name name s 0 with
      | None => None
      | Some gr => match find_all name r with None => None | Some l => Some (gr :: l) end
      end
  end.
(** corresp.c:138-166, the first half of [find_matched_grp]: the arrays [grp_ptr]; a speaker of the first
    system that is missing in another one ends the search *)
Fixpoint matched_grp (ss : list system) (gs : system) (mas_grp : nat) : list (list nat) :=
  match gs with
  | [] => []
  | g :: r =>
      match find_all (fst g) ss with
      | None => []
      | Some l => (mas_grp :: l) :: matched_grp ss r (mas_grp + 1)
      end
  end.

(** the arrays [path_ptr] of all the groups: group, row, system *)
Definition table := list (list (list nat)).
Definition put (t : table) (g row sc v : nat) : res table :=
  let* rows := get t g in
  let* cells := get rows row in
  let* cells := set cells sc v in
  let* rows := set rows row cells in
  set t g rows.
(** corresp.c:18-29: as many rows as the largest group of the first system has paths *)
Definition max_path (s0 : system) : nat := fold_left (fun m g => if m <? length (snd g) then length (snd g) else m) s0 0.
Definition new_table (s0 : system) (nscor : nat) : table :=
  repeat (repeat (repeat 0 nscor) (max_path s0)) (length s0).
(** corresp.c:201-211: the paths of a system up to the first with the identifier; each number tried is
    written to the table *)
Fixpoint find_id (id : list N) (ps : list sentence) (t : table) (gr np sc pa : nat) : res (table * bool) :=
  match ps with
  | [] => Ok (t, false)
  | p :: r =>
      let* t := put t gr np sc pa in
      if same id (s_id p) then Ok (t, true) else find_id id r t gr np sc (pa + 1)
  end.
(** corresp.c:200-215: the systems from the second on; [true] when all of them have the path *)
Fixpoint find_ids (id : list N) (ss : list system) (ptr : list nat) (t : table) (gr np sc : nat) : res (table * bool) :=
  match ss, ptr with
  | [], _ => Ok (t, true)
  | s :: r, q :: ptr' =>
      let* g := get s q in
      let* (t, found) := find_id id (snd g) t gr np sc 0 in
      if (found : bool) then find_ids id r ptr' t gr np (sc + 1) else Ok (t, false)
  | _ :: _, [] => Undef
  end.
(** corresp.c:192-218: one group; the number of the path in the first system is written to the row of the
    group with the number that the speaker has there *)
Fixpoint paths_of (ps : list sentence) (ss : list system) (ptr : list nat) (g0 : nat) (t : table) (gr np mpa : nat)
  : res (table * nat) :=
  match ps with
  | [] => Ok (t, np)
  | p :: r =>
      let* t := put t g0 np 0 mpa in
      let* (t, found) := find_ids (s_id p) ss ptr t gr np 1 in
      paths_of r ss ptr g0 t gr (if (found : bool) then np + 1 else np) (mpa + 1)
  end.
(** corresp.c:185-219, the first half of [find_matched_paths]: the table and the numbers of paths *)
Fixpoint matched_paths (s0 : system) (ss : list system) (ptrs : list (list nat)) (t : table) (gr : nat)
  : res (table * list nat) :=
  match ptrs with
  | [] => Ok (t, [])
  | [] :: _ => Undef
  | (g0 :: ptr) :: r =>
      let* g := get s0 g0 in
      let* (t, np) := paths_of (snd g) ss ptr g0 t gr 0 0 in
      let* (t, nps) := matched_paths s0 ss r t (gr + 1) in
      Ok (t, np :: nps)
  end.
(** corresp.c.h SC_CORRESPONDENCE *)
Record corresp := { c_ptr : list (list nat); c_np : list nat; c_path : table }.
(** corresp.c:33-39 [locate_matched_data] *)
Definition locate_matched (s0 : system) (ss : list system) : res corresp :=
  let ptrs := matched_grp ss s0 0 in
  let* (t, nps) := matched_paths s0 ss ptrs (new_table s0 (S (length ss))) 0 in
  Ok {| c_ptr := ptrs; c_np := nps; c_path := t |}.

(** corresp.c:168-183: the speakers of system [sc] that no matched group uses *)
Definition unmatched_grp (c : corresp) (s : system) (sc : nat) : res (list (list N)) :=
  let* used := each (fun ptr => get ptr sc) (c_ptr c) in
  Ok (flat_map (fun gr => match nth_error s gr with
                          | Some g => if existsb (Nat.eqb gr) used then [] else [fst g]
                          | None => [] end) (seq 0 (length s))).
(** corresp.c:221-242: the paths of system [sc] and the matched group [gr] that no row uses *)
Definition unmatched_path (c : corresp) (s : system) (sc gr : nat) : res (list (list N)) :=
  let* ptr := get (c_ptr c) gr in
  let* np := get (c_np c) gr in
  let* rows := get (c_path c) gr in
  let* q := get ptr sc in
  let* g := get s q in
  let* used := each (fun p => let* row := get rows p in get row sc) (seq 0 np) in
  Ok (flat_map (fun pa => match nth_error (snd g) pa with
                          | Some p => if existsb (Nat.eqb pa) used then [] else [s_id p]
                          | None => [] end) (seq 0 (length (snd g)))).

(** corresp.c:87-92: the paths of one row, one from each system *)
Fixpoint load (ss : list system) (ptr row : list nat) : res (list sentence) :=
  match ss, ptr, row with
  | [], _, _ => Ok []
  | s :: r, q :: ptr', p :: row' =>
      let* g := get s q in
      let* x := get (snd g) p in
      let* xs := load r ptr' row' in
      Ok (x :: xs)
  | _, _, _ => Undef
  end.

(** corresp.c:253-259: the first [n] steps of a path; a step that was never written is read when the path
    is shorter *)
Fixpoint ref_err (n : nat) (l : list wstep) (r e : nat) : res (nat * nat) :=
  match n with
  | O => Ok (r, e)
  | S n' =>
      match l with
      | [] => Undef
      | (_, _, ev) :: l' =>
          ref_err n' l' (match ev with PIns => r | _ => r + 1 end)
            (match ev with PDel | PIns | PSub => e + 1 | PCorr => e end)
      end
  end.
(** corresp.c:247-267 [scores_are_diff]: all the paths are read as far as the first one goes *)
Fixpoint differs (n : nat) (nref nerr : nat) (ls : list (list wstep)) : res bool :=
  match ls with
  | [] => Ok false
  | l :: r =>
      let* (a, b) := ref_err n l 0 0 in
      if negb (nref =? a) || negb (nerr =? b) then Ok true else differs n nref nerr r
  end.
Definition scores_are_diff (ls : list (list wstep)) : res bool :=
  match ls with
  | [] => Ok false
  | l :: r => let* (a, b) := ref_err (length l) l 0 0 in differs (length l) a b r
  end.

(** corresp.c:294-297: the rest of a path after its next insertions *)
Fixpoint skip_ins (l : list wstep) : list wstep :=
  match l with (_, _, PIns) :: r => skip_ins r | _ => l end.
(** corresp.c:291-309: two paths from given places on.  When only one of them has come to its end, the
    test for that is [>] instead of [>=] and the step after the last one is read. *)
Fixpoint same_refs (fuel : nat) (e : enc) (l0 lp : list wstep) : res bool :=
  match fuel with
  | O => NoFuel
  | S f =>
      match l0, lp with
      | [], _ | _, [] => Ok true
      | _, _ =>
          match skip_ins l0, skip_ins lp with
          | [], [] => Ok true
          | (a, _, _) :: r, (b, _, _) :: q =>
              let* v := value_of a in
              let* w := value_of b in
              let* c := strcmp e (cstr v) (cstr w) in
              if (c =? 0)%Z then same_refs f e r q else Ok false
          | _, _ => Undef
          end
      end
  end.
(** corresp.c:284-312 [identical_refs], two paths or more *)
Fixpoint all_same (e : enc) (l0 : list wstep) (ls : list (list wstep)) : res bool :=
  match ls with
  | [] => Ok true
  | l :: r => let* b := same_refs (S (length l0)) e l0 l in if (b : bool) then all_same e l0 r else Ok false
  end.

(** the steps of the first path with the cells of [evals] beside them *)
Definition marked := list (wstep * eval).
(** corresp.c:336-337 *)
Fixpoint skip_marked (l : marked) : marked * marked :=
  match l with
  | ((_, _, PIns), _) as x :: r => let (a, b) := skip_marked r in (x :: a, b)
  | _ => ([], l)
  end.
(** corresp.c:333-354: the cells of the words that another path has correct *)
Fixpoint mark (fuel : nat) (e : enc) (l0 : marked) (lp : list wstep) : res marked :=
  match fuel with
  | O => NoFuel
  | S f =>
      match l0, lp with
      | [], _ | _, [] => Ok l0
      | _, _ =>
          let (before, rest) := skip_marked l0 in
          match rest, skip_ins lp with
          | [], [] => Ok l0
          | ((a, h, ev), x) :: r, (b, _, evp) :: q =>
              let* v := value_of a in
              let* w := value_of b in
              let* c := strcmp e (cstr v) (cstr w) in
              if (c =? 0)%Z then
                let* r := mark f e r q in
                Ok (before ++ ((a, h, ev), match evp with PCorr => PCorr | _ => x end) :: r)
              else Exit
          | _, _ => Undef
          end
      end
  end.
Fixpoint mark_all (e : enc) (l0 : marked) (ls : list (list wstep)) : res marked :=
  match ls with
  | [] => Ok l0
  | l :: r => let* l0 := mark (S (length l0)) e l0 l in mark_all e l0 r
  end.
(** corresp.c:361-366: a word that no system has correct *)
Definition count_missed (e : enc) (x : lex) (v : list N) : res lex :=
  let* ind := lex_find e x v in
  let* (x, i) := if (ind <? 0)%Z then
                   let* (x, i) := lex_insert e x v in
                   let* a := set (x_a x) i 0%Z in
                   Ok ({| x_max := x_max x; x_num := x_num x; x_str := x_str x; x_a := a; x_b := x_b x; x_sort := x_sort x |}, i)
                 else Ok (x, Z.to_nat ind) in
  let* n := get (x_a x) i in
  let* a := set (x_a x) i (n + 1)%Z in
  Ok {| x_max := x_max x; x_num := x_num x; x_str := x_str x; x_a := a; x_b := x_b x; x_sort := x_sort x |}.
(** corresp.c:356-371 *)
Fixpoint count_words (e : enc) (x : lex) (l : marked) (refs errs : nat) : res (lex * nat * nat) :=
  match l with
  | [] => Ok (x, refs, errs)
  | ((a, _, _), ev) :: r =>
      match ev with
      | PIns => count_words e x r refs errs
      | PCorr => count_words e x r (refs + 1) errs
      | _ => let* v := value_of a in
             let* x := count_missed e x v in
             count_words e x r (refs + 1) (errs + 1)
      end
  end.
(** corresp.c:315-373 [lattice_error], two paths or more *)
Definition lattice_error (e : enc) (x : lex) (l0 : list wstep) (ls : list (list wstep)) : res (lex * nat * nat) :=
  let* m := mark_all e (map (fun s => (s, snd s)) l0) ls in
  count_words e x m 0 0.

(** what is printed for a row: nothing (only the name of the speaker), the one path, all the paths one by
    one, or the analysis with its two numbers and the common alignment (whose layout is not part of this model) *)
Inductive shown := Skipped | Single | OneByOne | Analysis (refs errs : nat).
(** the totals so far: the words and errors of the last analysis, their sums, the words missed *)
Record state := { t_ref : nat; t_err : nat; t_totref : nat; t_toterr : nat; t_lex : lex }.
(** corresp.c:515-587 [PATH_multi_print] without the layout *)
Definition multi_print (e : enc) (ls : list (list wstep)) (st : state) : res (shown * state) :=
  match ls with
  | [] => Undef
  | [_] => Ok (Single, st)
  | l0 :: r =>
      let* same := all_same e l0 r in
      if (same : bool) then
        let* (p, errs) := lattice_error e (t_lex st) l0 r in
        let (x, refs) := (p : lex * nat) in
        Ok (Analysis refs errs, {| t_ref := refs; t_err := errs; t_totref := t_totref st; t_toterr := t_toterr st; t_lex := x |})
      else Ok (OneByOne, st)
  end.
(** corresp.c:83-100: the rows of one group *)
Fixpoint dump_rows (e : enc) (diff : bool) (ss : list system) (ptr : list nat) (rows : list (list nat)) (to_print : bool) (st : state)
  : res (list (list sentence * shown) * state) :=
  match rows with
  | [] => Ok ([], st)
  | row :: r =>
      let* ps := load ss ptr row in
      let ls := map s_steps ps in
      let* to_print := if diff then let* d := scores_are_diff ls in Ok (if (d : bool) then to_print else false) else Ok to_print in
      let* (w, st) := if (to_print : bool) then multi_print e ls st else Ok (Skipped, st) in
      let st := {| t_ref := t_ref st; t_err := t_err st; t_totref := t_totref st + t_ref st; t_toterr := t_toterr st + t_err st; t_lex := t_lex st |} in
      let* (out, st) := dump_rows e diff ss ptr r to_print st in
      Ok ((ps, w) :: out, st)
  end.
(** corresp.c:80-101: the groups *)
Fixpoint dump_groups (e : enc) (diff : bool) (ss : list system) (t : table) (ptrs : list (list nat)) (nps : list nat) (gr : nat) (st : state)
  : res (list (list (list sentence * shown)) * state) :=
  match ptrs, nps with
  | [], _ => Ok ([], st)
  | ptr :: r, np :: nps' =>
      let* rows := get t gr in
      let* (out, st) := if np <=? length rows then dump_rows e diff ss ptr (firstn np rows) true st else Undef in
      let* (outs, st) := dump_groups e diff ss t r nps' (gr + 1) st in
      Ok (out :: outs, st)
  | _ :: _, [] => Undef
  end.
(** the summary: rows by group, the total numbers, the accuracy in percent ([None] is a division by zero)
    and the list of words that no system has correct *)
Record summary := { u_rows : list (list (list sentence * shown)); u_ref : nat; u_err : nat; u_acc : option Q; u_list : listing }.
(** corresp.c:41-107 [dump_paths_of_SC_CORRESPONDENCE]: an array of 100 paths holds a row;
    more systems count as undefined here even if there is no row.  The accuracy is exact instead of rounded. *)
Definition dump (qsort : (nat -> nat -> Z) -> list nat -> list nat) (e : enc) (diff : bool) (s0 : system) (ss : list system) : res summary :=
  let* c := locate_matched s0 ss in
  if length ss <? 100 then
    let* (out, st) := dump_groups e diff (s0 :: ss) (c_path c) (c_ptr c) (c_np c) 0
                        {| t_ref := 0; t_err := 0; t_totref := 0; t_toterr := 0; t_lex := lex_init 1000 |} in
    let* l := lex_printout qsort (t_lex st) 1%Z in
    Ok {| u_rows := out; u_ref := t_totref st; u_err := t_toterr st;
          u_acc := match t_totref st with
                   | O => None
                   | S _ => Some (inject_Z (Z.of_nat (t_totref st) - Z.of_nat (t_toterr st)) / inject_Z (Z.of_nat (t_totref st)) * 100)%Q
                   end;
          u_list := l |}
  else Undef.
