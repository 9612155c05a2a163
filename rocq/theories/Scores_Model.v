(** Speaker groups of sclite and their counters, /repo/src/sclite/scores.c, and McNemar's test on
    sentences, /repo/src/sclite/sentmcn.c. *)
From Coq Require Import List Arith ZArith NArith QArith Bool.
From Verif Require Import Base NetDp_Model Word_Model Order_Model Path_Model Binom_Model.
Import ListNotations.
Local Open Scope res_scope.
Local Open Scope nat_scope.

(** path.h PATH: the identifier of the sentence and its steps *)
Record sentence := { s_id : list N; s_steps : list wstep }.

(** sctk.h:91-113 GRP.  Counters are unbounded; weights are exact integers in a fixed unit instead of
    doubles; the counters of merges and splits are never changed and left out. *)
Record grp := {
  g_name : list N;
  g_corr : nat; g_ins : nat; g_del : nat; g_sub : nat;
  g_wref : Z; g_wcorr : Z; g_wins : Z; g_wdel : Z; g_wsub : Z;
  g_nsent : nat; g_serr : nat;
  g_path : path sentence
}.
(** sctk.h SCORES: the array [grp] with [num_grp] cells in use *)
Definition scores := path grp.

(** strcmp = 0 *)
Definition same (a b : list N) : bool := if list_eq_dec N.eq_dec a b then true else false.

(** scores.c:803-831 [SCORES_init] *)
Definition scores_init (ngrp : Z) : scores :=
  let ngrp := if (ngrp <? 20)%Z then 20%Z else ngrp in
  {| p_pset := repeat None (Z.to_nat ngrp); p_num := 0 |}.

(** scores.c:763-765 *)
Fixpoint find_grp (sc : scores) (name : list N) (k i : nat) : res (option nat) :=
  match k with
  | O => Ok None
  | S k' => let* c := get (p_pset sc) i in
            match c with
            | None => Undef
            | Some g => if same name (g_name g) then Ok (Some i) else find_grp sc name k' (i + 1)
            end
  end.
(** scores.c:776-797: a new group *)
Definition new_grp (name : list N) : grp :=
  {| g_name := name; g_corr := 0; g_ins := 0; g_del := 0; g_sub := 0;
     g_wref := 0%Z; g_wcorr := 0%Z; g_wins := 0%Z; g_wdel := 0%Z; g_wsub := 0%Z;
     g_nsent := 0; g_serr := 0; g_path := {| p_pset := repeat None 20; p_num := 0 |} |}.
(** scores.c:759-801 [SCORES_get_grp] *)
Definition get_grp (sc : scores) (name : list N) : res (scores * nat) :=
  let* f := find_grp sc name (p_num sc) 0 in
  match f with
  | Some i => Ok (sc, i)
  | None =>
      let* a := if length (p_pset sc) <=? p_num sc + 1 then expand_singarr None (p_pset sc) (p_num sc) 3 2
                else Ok (p_pset sc) in
      let* a := set a (p_num sc) (Some (new_grp name)) in
      Ok ({| p_pset := a; p_num := p_num sc + 1 |}, p_num sc)
  end.

(** the weight of the word a step points to; a null pointer is followed otherwise *)
Definition weight_of (w : option word) : res Z := match w with Some w => Ok (w_weight w) | None => Undef end.
(** scores.c:1015-1039: one step of the path; the boolean is [err > 0] *)
Definition count_step (g : grp) (s : wstep) : res (grp * bool) :=
  match s with
  | (a, b, PIns) =>
      let* w := weight_of b in
      Ok ({| g_name := g_name g; g_corr := g_corr g; g_ins := g_ins g + 1; g_del := g_del g; g_sub := g_sub g;
             g_wref := g_wref g; g_wcorr := g_wcorr g; g_wins := (g_wins g + w)%Z; g_wdel := g_wdel g; g_wsub := g_wsub g;
             g_nsent := g_nsent g; g_serr := g_serr g; g_path := g_path g |}, true)
  | (a, b, PDel) =>
      let* w := weight_of a in
      Ok ({| g_name := g_name g; g_corr := g_corr g; g_ins := g_ins g; g_del := g_del g + 1; g_sub := g_sub g;
             g_wref := (g_wref g + w)%Z; g_wcorr := g_wcorr g; g_wins := g_wins g; g_wdel := (g_wdel g + w)%Z; g_wsub := g_wsub g;
             g_nsent := g_nsent g; g_serr := g_serr g; g_path := g_path g |}, true)
  | (a, b, PCorr) =>
      let* w := weight_of a in
      let* v := weight_of b in
      Ok ({| g_name := g_name g; g_corr := g_corr g + 1; g_ins := g_ins g; g_del := g_del g; g_sub := g_sub g;
             g_wref := (g_wref g + w)%Z; g_wcorr := (g_wcorr g + v)%Z; g_wins := g_wins g; g_wdel := g_wdel g; g_wsub := g_wsub g;
             g_nsent := g_nsent g; g_serr := g_serr g; g_path := g_path g |}, false)
  | (a, b, PSub) =>
      let* w := weight_of a in
      let* v := weight_of b in
      Ok ({| g_name := g_name g; g_corr := g_corr g; g_ins := g_ins g; g_del := g_del g; g_sub := g_sub g + 1;
             g_wref := (g_wref g + w)%Z; g_wcorr := g_wcorr g; g_wins := g_wins g; g_wdel := g_wdel g; g_wsub := (g_wsub g + (w + v))%Z;
             g_nsent := g_nsent g; g_serr := g_serr g; g_path := g_path g |}, true)
  end.
Fixpoint count_steps (g : grp) (err : bool) (l : list wstep) : res (grp * bool) :=
  match l with
  | [] => Ok (g, err)
  | s :: r => let* (g, e) := count_step g s in count_steps g (err || e) r
  end.
(** scores.c:1044-1051 *)
Definition keep_path (p : path sentence) (x : sentence) : res (path sentence) :=
  let* a := if length (p_pset p) <=? p_num p + 1 then expand_singarr None (p_pset p) (p_num p) 2 1 else Ok (p_pset p) in
  let* a := set a (p_num p) (Some x) in
  Ok {| p_pset := a; p_num := p_num p + 1 |}.
(** scores.c:1012-1052 [add_PATH_score]; the branch for other evaluations only warns and is left out *)
Definition add_path_score (sc : scores) (x : sentence) (i : nat) (keep : bool) : res scores :=
  let* c := get (p_pset sc) i in
  match c with
  | None => Undef
  | Some g =>
      let* (g, err) := count_steps g false (s_steps x) in
      let* p := if keep then keep_path (g_path g) x else Ok (g_path g) in
      let g := {| g_name := g_name g; g_corr := g_corr g; g_ins := g_ins g; g_del := g_del g; g_sub := g_sub g;
             g_wref := g_wref g; g_wcorr := g_wcorr g; g_wins := g_wins g; g_wdel := g_wdel g; g_wsub := g_wsub g;
             g_nsent := g_nsent g + 1; g_serr := g_serr g + (if err : bool then 1 else 0); g_path := p |} in
      let* a := set (p_pset sc) i (Some g) in
      Ok {| p_pset := a; p_num := p_num sc |}
  end.

(** the calls of align.c and scores.c: look the speaker up, then add the path to its group *)
Definition call := (list N * sentence * bool)%type.
Fixpoint score_calls (sc : scores) (cs : list call) : res scores :=
  match cs with
  | [] => Ok sc
  | (name, x, keep) :: r =>
      let* (sc, i) := get_grp sc name in
      let* sc := add_path_score sc x i keep in
      score_calls sc r
  end.

(** * McNemar's test on sentences *)
(** sentmcn.c:109-121: whether the path has an error *)
Definition has_error (x : sentence) : bool := existsb (fun s => match snd s with PCorr => false | _ => true end) (s_steps x).

Definition table := (Z * Z * Z * Z)%type.   (* [0][0], [0][1], [1][0], [1][1] *)
(** sentmcn.c:122 *)
Definition bump (t : table) (e1 e2 : bool) : table :=
  let '(a, b, c, d) := t in
  match e1, e2 with
  | false, false => (a + 1, b, c, d)%Z
  | false, true => (a, b + 1, c, d)%Z
  | true, false => (a, b, c + 1, d)%Z
  | true, true => (a, b, c, d + 1)%Z
  end.
Definition kept (g : grp) (i : nat) : res sentence :=
  let* c := get (p_pset (g_path g)) i in match c with Some x => Ok x | None => Undef end.
(** sentmcn.c:104-125 *)
Fixpoint snt2_loop (x : sentence) (g2 : grp) (k i : nat) (t : table) : res table :=
  match k with
  | O => Ok t
  | S k' =>
      let* y := kept g2 i in
      snt2_loop x g2 k' (i + 1) (if same (s_id x) (s_id y) then bump t (has_error x) (has_error y) else t)
  end.
(** sentmcn.c:101-129; the warnings are left out *)
Fixpoint snt1_loop (g1 g2 : grp) (k i : nat) (t : table) : res table :=
  match k with
  | O => Ok t
  | S k' =>
      let* x := kept g1 i in
      let* t := snt2_loop x g2 (p_num (g_path g2)) 0 t in
      snt1_loop g1 g2 k' (i + 1) t
  end.
(** sentmcn.c:93-134 *)
Fixpoint spk1_loop (sys1 sys2 : scores) (k i : nat) (t : table) : res table :=
  match k with
  | O => Ok t
  | S k' =>
      let* c := get (p_pset sys1) i in
      match c with
      | None => Undef
      | Some g1 =>
          let* f := find_grp sys2 (g_name g1) (p_num sys2) 0 in
          let* t := match f with
                    | None => Ok t
                    | Some j => let* c := get (p_pset sys2) j in
                                match c with None => Undef | Some g2 => snt1_loop g1 g2 (p_num (g_path g1)) 0 t end
                    end in
          spk1_loop sys1 sys2 k' (i + 1) t
      end
  end.

Definition TEST_DIFF : Z := 1%Z.
Definition NO_DIFF : Z := 0%Z.
(** sentmcn.c:336-408 [compute_McNemar], without the report *)
Definition compute_mcnemar (t : table) (alpha : Q) : Z * Q :=
  let '(_, b, c, _) := t in
  let num_a := c in
  let num_b := b in
  let stat := (2 * acc_binomial (if num_a <? num_b then num_a else num_b)%Z (num_a + num_b) (1 # 2))%Q in
  ((if negb (Qle_bool alpha stat) then TEST_DIFF * (if num_b <? num_a then 1 else -1) else NO_DIFF)%Z, stat).
(** sentmcn.c:146-178 [do_McNemar] *)
Definition do_mcnemar (t : table) : Z * Q :=
  let '(_, b, c, _) := t in
  if ((b =? 0) && (c =? 0) || (b =? c))%Z then (NO_DIFF, 1%Q) else compute_mcnemar t (5 # 100).
(** sentmcn.c:84-140 [do_McNemar_by_sent] *)
Definition mcnemar_by_sent (sys1 sys2 : scores) : res (Z * Q) :=
  let* t := spk1_loop sys1 sys2 (p_num sys1) 0 (0, 0, 0, 0)%Z in
  Ok (do_mcnemar t).
