(** The command line of rover and what the program does with it: /repo/src/sclite/rover.c, [proc_args] 211-297, [main] 71-92
    and the parts of [mfalign_ctm_files_v1] 94-208 around the loop over the conversations (that loop is Sil_Model).

    Arguments are lists of bytes other than 0, without the name of the program.  Numbers read with atoi fit an int; what atof
    makes of a text is given, as a rational number.  Messages and MFALIGN_DBG are not modelled.  Exit is the end of the program
    with status 1 in [proc_args], Undef a read or write outside of an array. *)
From Coq Require Import String.
From Coq Require Import List ZArith QArith NArith Arith Bool.
From Verif Require Store_Model.
From Verif Require Import Base Sgml_Model.
Import ListNotations.
Local Open Scope list_scope.
Local Open Scope res_scope.

(** strcmp(a, b) == 0 *)
Definition same (a b : str) : bool := Store_Model.str_eqb a b.
(** rover.c:226: *argv == '-' *)
Definition dash (s : str) : bool := match s with c :: _ => (c =? 45)%N | [] => false end.
(** rover.c:36-43 *)
Inductive meth := Null | Meth1 | Oracle | MaxConf | Meth1a | MaxConfa | Putat | AvgConf.
(** rover.c:211: what the parameters point to *)
Record st := { hyps : list (str * str); feedback : Z; width : Z; times : bool; case : bool; out : option str; alpha : Q; null : Q; method : meth }.
(** rover.c:214-224 *)
Definition start : st := {| hyps := []; feedback := 1; width := 1000; times := false; case := false; out := None; alpha := 1; null := 0; method := Null |}.
(** What is outside of the program: atof, which files can be written and read. *)
Record env := { e_atof : str -> Q; e_creates : str -> bool; e_opens : str -> bool }.
(** rover.c:229-231: the test of the number of arguments never fails, and the word after the last one is a null pointer *)
Definition out_arg (rest : list str) (s : st) : res (st * list str) :=
  match rest with
  | [] => Undef
  | f :: r =>
      if dash f then Exit
      else Ok ({| hyps := hyps s; feedback := feedback s; width := width s; times := times s; case := case s; out := Some f; alpha := alpha s; null := null s;
                  method := method s |}, r)
  end.
(** rover.c:233-243; the arrays have 50 places (MAX_HYPS, 53) *)
Definition hyp_arg (rest : list str) (s : st) : res (st * list str) :=
  match rest with
  | [] => Exit
  | f :: r =>
      if dash f then Exit
      else if (50 <=? length (hyps s))%nat then Undef
      else
        let '(fmt, r) := match r with w :: r2 => if negb (dash w) then (w, r2) else (B "trn", r) | [] => (B "trn", r) end in
        let l := hyps s ++ [(f, fmt)] in
        if match l with (_, f0) :: _ :: _ => negb (same f0 fmt) | _ => false end then Exit
        else Ok ({| hyps := l; feedback := feedback s; width := width s; times := times s; case := case s; out := out s; alpha := alpha s; null := null s;
                    method := method s |}, r)
  end.
(** rover.c:244-259: an option with one word, whatever it is *)
Definition one_arg (f : str -> st -> st) (rest : list str) (s : st) : res (st * list str) :=
  match rest with v :: r => Ok (f v s, r) | [] => Exit end.
(** rover.c:247 *)
Definition set_alpha (q : Q) (s : st) : st :=
  {| hyps := hyps s; feedback := feedback s; width := width s; times := times s; case := case s; out := out s; alpha := q; null := null s; method := method s |}.
(** rover.c:251 *)
Definition set_null (q : Q) (s : st) : st :=
  {| hyps := hyps s; feedback := feedback s; width := width s; times := times s; case := case s; out := out s; alpha := alpha s; null := q; method := method s |}.
(** rover.c:255 *)
Definition set_width (z : Z) (s : st) : st :=
  {| hyps := hyps s; feedback := feedback s; width := z; times := times s; case := case s; out := out s; alpha := alpha s; null := null s; method := method s |}.
(** rover.c:258 *)
Definition set_feedback (z : Z) (s : st) : st :=
  {| hyps := hyps s; feedback := z; width := width s; times := times s; case := case s; out := out s; alpha := alpha s; null := null s; method := method s |}.
(** rover.c:262-277 *)
Definition set_method (m : meth) (s : st) : st :=
  {| hyps := hyps s; feedback := feedback s; width := width s; times := times s; case := case s; out := out s; alpha := alpha s; null := null s; method := m |}.
(** rover.c:281 *)
Definition set_case (s : st) : st :=
  {| hyps := hyps s; feedback := feedback s; width := width s; times := times s; case := true; out := out s; alpha := alpha s; null := null s; method := method s |}.
(** rover.c:283 *)
Definition set_times (s : st) : st :=
  {| hyps := hyps s; feedback := feedback s; width := width s; times := true; case := case s; out := out s; alpha := alpha s; null := null s; method := method s |}.
(** rover.c:260-279 *)
Definition meth_arg (rest : list str) (s : st) : res (st * list str) :=
  match rest with
  | [] => Exit
  | w :: r =>
      if same w (B "meth1") then Ok (set_method Meth1 s, r) else if same w (B "oracle") then Ok (set_method Oracle s, r)
      else if same w (B "putat") then Ok (set_method Putat s, r) else if same w (B "maxconf") then Ok (set_method MaxConf s, r)
      else if same w (B "avgconf") then Ok (set_method AvgConf s, r) else if same w (B "meth1a") then Ok (set_method Meth1a s, r)
      else if same w (B "maxconfa") then Ok (set_method MaxConfa s, r) else Exit
  end.
(** rover.c:228-289: the body of the loop *)
Definition step (e : env) (a : str) (rest : list str) (s : st) : res (st * list str) :=
  if same a (B "-o") then out_arg rest s
  else if same a (B "-h") then hyp_arg rest s
  else if same a (B "-a") then one_arg (fun v => set_alpha (e_atof e v)) rest s
  else if same a (B "-c") then one_arg (fun v => set_null (e_atof e v)) rest s
  else if same a (B "-l") then one_arg (fun v => set_width (atoi v)) rest s
  else if same a (B "-f") then one_arg (fun v => set_feedback (atoi v)) rest s
  else if same a (B "-m") then meth_arg rest s
  else if same a (B "-s") then Ok (set_case s, rest)
  else if same a (B "-T") then Ok (set_times s, rest)
  else Exit.
(** rover.c:226: up to the first word without '-' where an option is expected *)
Fixpoint loop (fuel : nat) (e : env) (args : list str) (s : st) : res st :=
  match args with
  | [] => Ok s
  | a :: rest => if dash a then match fuel with O => NoFuel | S k => let* (s, rest) := step e a rest s in loop k e rest s end else Ok s
  end.
(** rover.c:211-297 [proc_args] *)
Definition proc_args (e : env) (args : list str) : res (st * str) :=
  let* s := loop (length args) e args start in
  if (length (hyps s) <=? 1)%nat then Exit
  else match out s with
       | None => Exit
       | Some f => match method s with Null => Exit | _ => Ok (s, f) end
       end.

(** What a run does: the output file is made, text is written to it, the inputs are opened, and the conversations of all of
    them are combined (rover.c:151-191) with the settings. *)
Record settings := { c_inputs : list str; c_method : meth; c_alpha : Q; c_null : Q; c_times : bool; c_case : bool }.
Inductive event := Create (f : str) | Write (t : str) | Open (f : str) | Combine (c : settings).
(** rover.c:131-135 *)
Fixpoint names (first : bool) (l : list str) : str :=
  match l with [] => [] | f :: r => (if first then [] else [32%N]) ++ f ++ names false r end.
(** rover.c:129-136 *)
Definition header (l : list str) : str := B "<input names=" ++ [34%N] ++ names true l ++ [34%N; 62%N; 10%N].
(** rover.c:141-147: what was opened, and whether all of them were *)
Fixpoint open_all (e : env) (l : list str) : list event * bool :=
  match l with
  | [] => ([], true)
  | f :: r => if e_opens e f then let '(ev, b) := open_all e r in (Open f :: ev, b) else ([], false)
  end.
(** rover.c:94-208 [mfalign_ctm_files_v1] *)
Definition combine (e : env) (s : st) (o : str) : list event * bool :=
  if negb (e_creates e o) then ([], false)
  else
    let files := map fst (hyps s) in
    let h := match method s with Putat => [Write (header files)] | _ => [] end in
    let '(ev, b) := open_all e files in
    (Create o :: h ++ ev ++ (if b then [Combine {| c_inputs := files; c_method := method s; c_alpha := alpha s; c_null := null s; c_times := times s; c_case := case s |}] else []), b).
(** rover.c:71-92 [main]: what was done and whether the status is 0 *)
Definition main (e : env) (args : list str) : res (list event * bool) :=
  let* (s, o) := proc_args e args in
  match hyps s with
  | (_, f0) :: _ => Ok (if same f0 (B "ctm") then combine e s o else ([], true))
  | [] => Undef
  end.
