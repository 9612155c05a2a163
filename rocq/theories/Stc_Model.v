(** The command line of sc_stats and what the program does with it: /repo/src/sclite/sc_stats.c, [main] 70-115,
    [run_multi_sys] 117-308 and [proc_arcs] 310-439.

    Arguments are lists of bytes other than 0, without the name of the program.  Numbers read with atoi fit an int, and names
    are shorter than 200 bytes.  A set of bits (STAT_, GRAPH_, REPORT_) is a set of flags.  Messages and the contents of the
    reports are not modelled here: a test, a graph or a report is an event with its arguments.  Exit is the end of the program
    with status 1 before anything was done, Undef a read of a variable that was not set or a write outside of an array. *)
From Coq Require Import String.
From Coq Require Import List ZArith NArith Arith Bool.
From Verif Require Store_Model.
From Verif Require Import Base Sgml_Model.
Import ListNotations.
Local Open Scope list_scope.
Local Open Scope res_scope.

(** strcmp(a, b) == 0 *)
Definition same (a b : str) : bool := Store_Model.str_eqb a b.
(** sc_stats.c:327: *argv == '-' *)
Definition dash (s : str) : bool := match s with c :: _ => (c =? 45)%N | [] => false end.
(** sc_stats.c:13-18, without STAT_STDOUT *)
Inductive test := TMcn | TMapsswe | TSign | TWilc | TAnovar | TSeg.
(** sc_stats.c:21-25, without GRAPH_STDOUT *)
Inductive graph := GRange | GGrange | GGrange2 | GDet.
(** sc_stats.c:28-33 *)
Inductive rep := RSum | RRsum | RLur | REsum | RResum | RPrn.
Definition test_dec (a b : test) : {a = b} + {a <> b}. Proof. decide equality. Defined.
Definition graph_dec (a b : graph) : {a = b} + {a <> b}. Proof. decide equality. Defined.
Definition rep_dec (a b : rep) : {a = b} + {a <> b}. Proof. decide equality. Defined.
(** sc_stats.c:310: what the parameters point to *)
Record st := { files : list str; pipein : option bool; feedback : Z; dir : option str; tests : test -> bool; verbose : bool; unified : bool;
               graphs : graph -> bool; name : str; formula : str; desc : str; reps : rep -> bool; width : Z }.
(** sc_stats.c:316-325; pipein is not set *)
Definition start : st := {| files := []; pipein := None; feedback := 1; dir := None; tests := fun _ => false; verbose := false; unified := false;
                            graphs := fun _ => false; name := B "Ensemble"; formula := B "E"; desc := []; reps := fun _ => false; width := 100 |}.
(** sc_stats.c:333, 335, 338, 341, 344, 348, 353, 355, 357 *)
Definition set_files (v : list str) (s : st) : st :=
  {| files := v; pipein := pipein s; feedback := feedback s; dir := dir s; tests := tests s; verbose := verbose s; unified := unified s; graphs := graphs s; name := name s;
     formula := formula s; desc := desc s; reps := reps s; width := width s |}.
Definition set_pipein (s : st) : st :=
  {| files := files s; pipein := Some true; feedback := feedback s; dir := dir s; tests := tests s; verbose := verbose s; unified := unified s; graphs := graphs s; name := name s;
     formula := formula s; desc := desc s; reps := reps s; width := width s |}.
Definition set_feedback (v : Z) (s : st) : st :=
  {| files := files s; pipein := pipein s; feedback := v; dir := dir s; tests := tests s; verbose := verbose s; unified := unified s; graphs := graphs s; name := name s;
     formula := formula s; desc := desc s; reps := reps s; width := width s |}.
Definition set_dir (v : str) (s : st) : st :=
  {| files := files s; pipein := pipein s; feedback := feedback s; dir := Some v; tests := tests s; verbose := verbose s; unified := unified s; graphs := graphs s; name := name s;
     formula := formula s; desc := desc s; reps := reps s; width := width s |}.
Definition set_tests (v : test -> bool) (s : st) : st :=
  {| files := files s; pipein := pipein s; feedback := feedback s; dir := dir s; tests := v; verbose := verbose s; unified := unified s; graphs := graphs s; name := name s;
     formula := formula s; desc := desc s; reps := reps s; width := width s |}.
Definition set_verbose (s : st) : st :=
  {| files := files s; pipein := pipein s; feedback := feedback s; dir := dir s; tests := tests s; verbose := true; unified := unified s; graphs := graphs s; name := name s;
     formula := formula s; desc := desc s; reps := reps s; width := width s |}.
Definition set_unified (s : st) : st :=
  {| files := files s; pipein := pipein s; feedback := feedback s; dir := dir s; tests := tests s; verbose := verbose s; unified := true; graphs := graphs s; name := name s;
     formula := formula s; desc := desc s; reps := reps s; width := width s |}.
Definition set_graphs (v : graph -> bool) (s : st) : st :=
  {| files := files s; pipein := pipein s; feedback := feedback s; dir := dir s; tests := tests s; verbose := verbose s; unified := unified s; graphs := v; name := name s;
     formula := formula s; desc := desc s; reps := reps s; width := width s |}.
Definition set_name (v : str) (s : st) : st :=
  {| files := files s; pipein := pipein s; feedback := feedback s; dir := dir s; tests := tests s; verbose := verbose s; unified := unified s; graphs := graphs s; name := v;
     formula := formula s; desc := desc s; reps := reps s; width := width s |}.
Definition set_desc (v : str) (s : st) : st :=
  {| files := files s; pipein := pipein s; feedback := feedback s; dir := dir s; tests := tests s; verbose := verbose s; unified := unified s; graphs := graphs s; name := name s;
     formula := formula s; desc := v; reps := reps s; width := width s |}.
Definition set_reps (v : rep -> bool) (s : st) : st :=
  {| files := files s; pipein := pipein s; feedback := feedback s; dir := dir s; tests := tests s; verbose := verbose s; unified := unified s; graphs := graphs s; name := name s;
     formula := formula s; desc := desc s; reps := v; width := width s |}.
Definition set_width (v : Z) (s : st) : st :=
  {| files := files s; pipein := pipein s; feedback := feedback s; dir := dir s; tests := tests s; verbose := verbose s; unified := unified s; graphs := graphs s; name := name s;
     formula := formula s; desc := desc s; reps := reps s; width := v |}.
(** sc_stats.c:363-376: *stats ^= a bit *)
Definition flip_test (t : test) (f : test -> bool) : test -> bool := fun x => if test_dec x t then negb (f x) else f x.
Definition flip_graph (t : graph) (f : graph -> bool) : graph -> bool := fun x => if graph_dec x t then negb (f x) else f x.
Definition flip_rep (t : rep) (f : rep -> bool) : rep -> bool := fun x => if rep_dec x t then negb (f x) else f x.
(** sc_stats.c:374, 431 *)
Definition std4 (t : test) : bool := match t with TMcn | TMapsswe | TSign | TWilc => true | _ => false end.
(** sc_stats.c:362-377: one test *)
Definition test_word (w : str) (f : test -> bool) : test -> bool :=
  if same w (B "mcn") then flip_test TMcn f else if same w (B "mapsswe") then flip_test TMapsswe f else if same w (B "mapsswe_seg") then flip_test TSeg f
  else if same w (B "sign") then flip_test TSign f else if same w (B "wilc") then flip_test TWilc f else if same w (B "anovar") then flip_test TAnovar f
  else if same w (B "std4") then std4 else f.
(** sc_stats.c:387-402: one report *)
Definition rep_word (w : str) (f : rep -> bool) : rep -> bool :=
  if same w (B "sum") then flip_rep RSum f else if same w (B "rsum") then flip_rep RRsum f else if same w (B "es") then flip_rep REsum f
  else if same w (B "res") then flip_rep RResum f else if same w (B "prn") then flip_rep RPrn f else if same w (B "lur") then flip_rep RLur f
  else if same w (B "none") then (fun _ => false) else f.
(** sc_stats.c:410-419: one graph *)
Definition graph_word (w : str) (f : graph -> bool) : graph -> bool :=
  if same w (B "range") then flip_graph GRange f else if same w (B "grange") then flip_graph GGrange f else if same w (B "grange2") then flip_graph GGrange2 f
  else if same w (B "det") then flip_graph GDet f else f.
(** sc_stats.c:361-380, 386-405, 409-422: the words up to the next one with a '-', and what is left *)
Fixpoint word_loop (rest : list str) : list str * list str :=
  match rest with
  | w :: r => if negb (dash w) then let '(a, b) := word_loop r in (w :: a, b) else ([], rest)
  | [] => ([], [])
  end.
(** sc_stats.c:329-333; the array has 40 places (MAX_HYPS, 68) *)
Definition files_arg (rest : list str) (s : st) : res (st * list str) :=
  match rest with
  | [] => Exit
  | f :: _ => if dash f then Exit
              else let '(a, b) := word_loop rest in
                   if (40 <? length (files s) + length a)%nat then Undef else Ok (set_files (files s ++ a) s, b)
  end.
(** an option with one word, whatever it is *)
Definition one_arg (f : str -> st -> st) (rest : list str) (s : st) : res (st * list str) :=
  match rest with v :: r => Ok (f v s, r) | [] => Exit end.
(** an option with a list of words *)
Definition list_arg (f : list str -> st -> st) (rest : list str) (s : st) : res (st * list str) :=
  match rest with [] => Exit | _ => let '(a, b) := word_loop rest in Ok (f a s, b) end.
(** sc_stats.c:328-438: the body of the loop; the second test for -f (424-438) is never reached *)
Definition step (a : str) (rest : list str) (s : st) : res (st * list str) :=
  if same a (B "-a") then files_arg rest s
  else if same a (B "-p") then Ok (set_pipein s, rest)
  else if same a (B "-f") then one_arg (fun v => set_feedback (atoi v)) rest s
  else if same a (B "-O") then one_arg set_dir rest s
  else if same a (B "-n") then one_arg set_name rest s
  else if same a (B "-e") then one_arg set_desc rest s
  else if same a (B "-l") then one_arg (fun v => set_width (atoi v)) rest s
  else if same a (B "-v") then Ok (set_verbose s, rest)
  else if same a (B "-u") then Ok (set_unified s, rest)
  else if same a (B "-t") then list_arg (fun ws s => set_tests (fold_left (fun f w => test_word w f) ws (tests s)) s) rest s
  else if same a (B "-r") then list_arg (fun ws s => set_reps (fold_left (fun f w => rep_word w f) ws (reps s)) s) rest s
  else if same a (B "-g") then list_arg (fun ws s => set_graphs (fold_left (fun f w => graph_word w f) ws (graphs s)) s) rest s
  else if same a (B "-w") then Ok (set_unified (set_tests std4 (set_graphs (fun g => match g with GRange => true | _ => false end) s)), rest)
  else Exit.
(** sc_stats.c:327: up to the first word without '-' where an option is expected *)
Fixpoint loop (fuel : nat) (args : list str) (s : st) : res st :=
  match args with
  | [] => Ok s
  | a :: rest => if dash a then match fuel with O => NoFuel | S k => let* (s, rest) := step a rest s in loop k rest s end else Ok s
  end.
(** sc_stats.c:310-439 [proc_arcs] *)
Definition proc_args (args : list str) : res st := match args with [] => Exit | _ => loop (length args) args start end.

(** What is done: a test, with its own matrix or not; the analysis of segments; the report of all tests; a graph; a report. *)
Inductive event := Test (t : test) (formula : str) (matrix verbose : bool) (desc : str) (to : str) | Segments (desc : str) | Unified (ts : list test) (desc to dir : str)
  | Graph (g : graph) (formula : str) (desc : str) (to : str) | Report (r : rep) (desc : str) (to : str) (line : option Z).
(** sc_stats.c:129-136 *)
Definition out_root (s : st) : str := if same (name s) (B "-") then name s else match dir s with Some d => d ++ [47%N] | None => [] end ++ name s.
(** sc_stats.c:138-141, 243-246, 251-254, 259-262: a file of the root with an ending, or the standard output *)
Definition out_name (s : st) (x : string) : str := if same (B "-") (out_root s) then out_root s else out_root s ++ B "." ++ B x.
(** sc_stats.c:152-220: the tests in their order *)
Definition test_order : list test := [TMapsswe; TSeg; TSign; TWilc; TMcn; TAnovar].
Definition test_event (s : st) (t : test) : event :=
  match t with TSeg => Segments (desc s) | _ => Test t (formula s) (negb (unified s)) (verbose s) (desc s) (out_name s "stats") end.
(** sc_stats.c:241-265 *)
Definition graph_event (s : st) (g : graph) : event :=
  Graph g (formula s) (desc s) (match g with GRange => out_name s "range" | GGrange => out_name s "grange" | GGrange2 => out_name s "grange2" | GDet => out_root s end).
(** sc_stats.c:279-299 *)
Definition rep_order : list rep := [RSum; RRsum; REsum; RResum; RPrn; RLur].
Definition rep_event (s : st) (r : rep) : event :=
  match r with RPrn => Report r [] (out_root s) (Some (width s)) | _ => Report r (desc s) (out_root s) None end.
(** sc_stats.c:104-107: any bit of a set *)
Definition any_test (s : st) : bool := existsb (tests s) test_order.
Definition any_graph (s : st) : bool := existsb (graphs s) [GRange; GGrange; GGrange2; GDet].
Definition any_rep (s : st) : bool := existsb (reps s) rep_order.
(** sc_stats.c:117-308 [run_multi_sys]: what was done and whether the program goes on; [det] says if the DET curve can be made.
    Without tests and graphs the ranks are not set. *)
Definition run_multi (det : bool) (s : st) : res (list event * bool) :=
  let t := map (test_event s) (filter (tests s) test_order) in
  let* u := if unified s then
              if any_test s || any_graph s then
                Ok [Unified (filter (fun t => match t with TSeg => false | _ => tests s t end) test_order) (desc s) (out_name s "stats") (match dir s with Some d => d | None => [] end)]
              else Undef
            else Ok [] in
  let g := map (graph_event s) (filter (graphs s) [GRange; GGrange; GGrange2]) in
  let make := graphs s GDet && negb (same (B "-") (out_root s)) in
  let d := if make then [graph_event s GDet] else [] in
  if make && negb det then Ok (t ++ u ++ g ++ d, false)
  else Ok (t ++ u ++ g ++ d ++ map (rep_event s) (filter (reps s) rep_order), true).
(** sc_stats.c:70-115 [main]; [loads] says if the alignments on the standard input can be read *)
Definition main (loads det : bool) (args : list str) : res (list event * bool) :=
  let* s := proc_args args in
  match pipein s with
  | None => Undef
  | Some p =>
      if p && negb loads then Exit
      else if any_test s || any_graph s || any_rep s then run_multi det s else Ok ([], true)
  end.
