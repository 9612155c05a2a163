(** The subsets of sclite: labels declared in comment lines and the scores per label of the labelled
    utterance report: /repo/src/sclite/lur.c, /repo/src/sclite/scores.c.

    The static buffer of the case conversion is passed along.  Counters are unbounded.  Messages and the
    layout of the report are not modelled. *)
From Coq Require Import List ZArith NArith Arith Bool.
From Verif Require Import Base Text_Model Case_Model Sgml_Model.
Import ListNotations.
Local Open Scope res_scope.

(** scores.c:995-1010 [load_comment_labels_from_file]: the lines of the file, one block each. *)
Fixpoint load_labels (e : enc) (labels cats : list label) (lines : list mem) : res (list label * list label) :=
  match lines with
  | [] => Ok (labels, cats)
  | b :: r => let* (x, cats) := comment_line e labels cats b in load_labels e (snd x) cats r
  end.

(** scores.c:874-881 [find_PATHLABEL_id]; [None] is -1.  [ids] are the identifiers of the labels. *)
Fixpoint find_id (e : enc) (p : profile) (junk : byte) (static : option mem) (ids : list mem) (id : mem) (i : nat)
  : res (option nat * option mem) :=
  match ids with
  | [] => Ok (None, static)
  | a :: r => let* (z, s) := strcasecmp e p junk static a id in
              if (z =? 0)%Z then Ok (Some i, Some s) else find_id e p junk (Some s) r id (S i)
  end.

Inductive eval := Corr | Sub | Ins | Del | Other.
(** sctk.h PATH: the label text, [None] for the null pointer, and the classes of the words *)
Record sentence := { t_labels : option mem; t_evals : list eval }.
(** sctk.h SCORES: identifiers of the labels, sentences of the speakers *)
Record system := { y_ids : list mem; y_grps : list (list sentence) }.

(** lur.c:87-97: the words counted *)
Fixpoint words (l : list eval) : nat * nat * nat * nat :=
  match l with
  | [] => (0, 0, 0, 0)
  | x :: r => let '(c, s, n, d) := words r in
              match x with
              | Corr => (S c, s, n, d) | Sub => (c, S s, n, d) | Ins => (c, s, S n, d) | Del => (c, s, n, S d)
              | Other => (c, s, n, d)
              end
  end.
Definition nref (l : list eval) : nat := let '(c, s, n, d) := words l in c + d + s.
Definition nerr (l : list eval) : nat := let '(c, s, n, d) := words l in n + d + s.

(** lur.c:8-16: a place for each label ([None] is -1); counters by system, label and speaker *)
Record lab := { location : list (option nat); lsc : list (list (list (nat * nat))) }.
(** lur.c:27-42 [alloc_LABEL_SCORES] *)
Definition alloc (nscor nlab ngrp : nat) : lab :=
  {| location := repeat None nlab; lsc := repeat (repeat (repeat (0, 0) ngrp) nlab) nscor |}.

(** an element of an array changed *)
Fixpoint change {A} (l : list A) (i : nat) (f : A -> res A) : res (list A) :=
  match l, i with
  | [], _ => Undef
  | x :: r, O => let* y := f x in Ok (y :: r)
  | x :: r, S j => let* r := change r j f in Ok (x :: r)
  end.

(** lur.c:76-99: one label found in a sentence *)
Definition count_label (scnum i : nat) (l : list eval) (sets id : nat) (t : lab) : res lab :=
  let* loc := change (location t) id (fun o => match o with
                                                | None => Ok (Some sets)
                                                | Some q => if Nat.eqb q sets then Ok (Some q) else Exit
                                                end) in
  let* sc := change (lsc t) scnum (fun a => change a id (fun b => change b i (fun c =>
               Ok (fst c + nref l, snd c + nerr l)))) in
  Ok {| location := loc; lsc := sc |}.

(** strcspn with the characters [<], [,] and [>] *)
Definition stops (b : byte) : bool := ((b =? 60) || (b =? 44) || (b =? 62))%N.
Fixpoint cspn (m : mem) : res nat :=
  match m with
  | [] => Undef
  | b :: r => if (b =? 0)%N || stops b then Ok 0 else let* n := cspn r in Ok (S n)
  end.

(** lur.c:66-104: the loop over the label text from [cp] *)
Fixpoint label_loop (fuel : nat) (e : enc) (p : profile) (junk : byte) (ids : list mem) (scnum i : nat) (l : list eval)
  (cp : mem) (sets : nat) (static : option mem) (t : lab) : res (option mem * lab) :=
  match fuel with
  | O => NoFuel
  | S f =>
      let* b := rd cp in
      if ((b =? 0) || (b =? 62))%N then Ok (static, t)
      else
        let* ind := (if negb ((b =? 60) || (b =? 44))%N
                     then let* n := cspn cp in if Nat.ltb n 1 then Exit else Ok n
                     else Ok 0) in
        if negb (Nat.eqb ind 0) then
          if Nat.ltb ind 30 then
            let* h := take ind cp in
            let* (id, static) := find_id e p junk static ids (h ++ 0%N :: repeat junk (29 - ind)) 0 in
            match id with
            | None => Exit
            | Some id =>
                let* t := count_label scnum i l sets id t in
                let* cp := adv (ind + 1) cp in
                label_loop f e p junk ids scnum i l cp (S sets) static t
            end
          else Undef
        else let* cp := adv 1 cp in label_loop f e p junk ids scnum i l cp (S sets) static t
  end.
(** lur.c:57-106 *)
Definition label_sentence (e : enc) (p : profile) (junk : byte) (ids : list mem) (scnum i : nat) (s : sentence)
  (st : option mem * lab) : res (option mem * lab) :=
  match t_labels s with
  | None => Ok st
  | Some m =>
      let* b := rd m in
      let* cp := adv 1 m in
      if (b =? 60)%N then label_loop (S (length cp)) e p junk ids scnum i (t_evals s) cp 0 (fst st) (snd st) else Exit
  end.
Fixpoint label_group (e : enc) (p : profile) (junk : byte) (ids : list mem) (scnum i : nat) (ss : list sentence)
  (st : option mem * lab) : res (option mem * lab) :=
  match ss with
  | [] => Ok st
  | s :: r => let* st := label_sentence e p junk ids scnum i s st in label_group e p junk ids scnum i r st
  end.
Fixpoint label_groups (e : enc) (p : profile) (junk : byte) (ids : list mem) (scnum i : nat) (gs : list (list sentence))
  (st : option mem * lab) : res (option mem * lab) :=
  match gs with
  | [] => Ok st
  | g :: r => let* st := label_group e p junk ids scnum i g st in label_groups e p junk ids scnum (S i) r st
  end.
(** lur.c:52-127 [compute_label_scores] *)
Definition compute_label_scores (e : enc) (p : profile) (junk : byte) (scnum : nat) (y : system)
  (st : option mem * lab) : res (option mem * lab) := label_groups e p junk (y_ids y) scnum 0 (y_grps y) st.

(** lur.c:469-496 [print_N_lur] up to the report; lur.c:442-464 [print_lur] is the case of one system *)
Fixpoint compute_systems (e : enc) (p : profile) (junk : byte) (scnum : nat) (ys : list system)
  (st : option mem * lab) : res (option mem * lab) :=
  match ys with
  | [] => Ok st
  | y :: r => let* st := compute_label_scores e p junk scnum y st in compute_systems e p junk (S scnum) r st
  end.
Definition lur (e : enc) (p : profile) (junk : byte) (static : option mem) (ys : list system) : res lab :=
  match ys with
  | [] => Undef
  | y0 :: _ => let* st := compute_systems e p junk 0 ys (static, alloc (length ys) (length (y_ids y0)) (length (y_grps y0))) in
               Ok (snd st)
  end.

(** lur.c:224-247, the column of a label in the report of one system: the counters of the speakers with
    reference words, which go into mean, deviation and median, and the sums of all *)
Definition present1 (c : nat * nat) : bool := Nat.ltb 0 (fst c).
Definition sums (l : list (nat * nat)) : nat * nat := fold_left (fun a c => (fst a + fst c, snd a + snd c)) l (0, 0).
Definition column1 (cells : list (nat * nat)) : list (nat * nat) * (nat * nat) := (filter present1 cells, sums cells).
(** lur.c:343-367, in the report of several systems *)
Definition presentN (c : nat * nat) : bool := negb (Nat.eqb (fst c + snd c) 0).
Definition columnN (cells : list (nat * nat)) : list (nat * nat) * (nat * nat) :=
  (filter presentN cells, sums (filter presentN cells)).
