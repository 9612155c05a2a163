(** What the reports of the significance tests must say. *)
From Coq Require Import String List ZArith NArith Arith Bool QArith.
From Verif Require Import Base Store_Model Sig_Model.
Import ListNotations.
Local Open Scope nat_scope.

(** ** Reading a text *)
Fixpoint split (c : N) (s : str) : list str :=
  match s with
  | [] => [[]]
  | x :: r => if (x =? c)%N then [] :: split c r
              else match split c r with h :: t => (x :: h) :: t | [] => [[x]] end
  end.
Definition nonblank (l : str) : bool := match l with [] => false | _ => true end.
(** the words of a line *)
Definition words (l : str) : list str := filter nonblank (split 32%N l).
(** the boxes of a line of a matrix: what stands between its bars, without the blanks around it *)
Fixpoint ltrim (s : str) : str := match s with c :: r => if (c =? 32)%N then ltrim r else s | [] => [] end.
Definition trim (s : str) : str := rev (ltrim (rev (ltrim s))).
Definition boxes (l : str) : list str := map trim (removelast (tl (split 124%N l))).
(** A name that is one word, without bars *)
Definition word (s : str) : Prop := s <> [] /\ Forall (fun c => c <> 10%N /\ c <> 32%N /\ c <> 124%N) s.
Definition one_line (s : str) : Prop := ~ In 10%N s.

(** ** What a test has found *)
(** [w s t] is for [s < t] below 0 if [s] is better, above if [t] is better, and 0 if there is no difference. *)
Definition better (w : Z) (first second : str) : str :=
  match w with Z0 => bytes "same" | Zneg _ => first | Zpos _ => second end.
Definition against (names : list str) (w : nat -> nat -> Z) (s t : nat) : str :=
  let lo := Nat.min s t in
  let hi := Nat.max s t in
  better (w lo hi) (nth lo names []) (nth hi names []).
Definition others (n s : nat) : list nat := filter (fun t => negb (Nat.eqb t s)) (seq 0 n).

(** ** The report of a system *)
(** The table of a report: the abbreviations in its sixth line, and from the eighth line on, up to an empty line,
    the systems and what the tests say. *)
Fixpoint until_empty (l : list str) : list str :=
  match l with [] => [] | x :: r => match x with [] => [] | _ => x :: until_empty r end end.
Definition table_lines (report : str) : list str := until_empty (skipn 5 (split 10%N report)).
Definition headings (report : str) : list str := words (hd [] (table_lines report)).
Definition entries (report : str) : list (list str) := map words (skipn 2 (table_lines report)).
(** its legend: the lines before the last five *)
Definition legend (k : nat) (report : str) : list (list str) :=
  let ls := split 10%N report in map words (firstn k (skipn (length ls - 5 - k) ls)).
(** the file: the name of the system without the directories, if the reports go to a directory *)
Definition base (s : str) : str := last (split 47%N s) [].
Definition report_file (outdir name : str) : str :=
  match outdir with
  | [] => name ++ bytes ".sts"
  | _ => outdir ++ bytes "/" ++ (if existsb (N.eqb 47) name then bytes "/" else []) ++ base name ++ bytes ".sts"
  end.

(** ** A matrix *)
(** a row of the matrix of a test: the name, nothing up to the diagonal, and what the test says *)
Definition matrix_row (names : list str) (w : nat -> nat -> Z) (s : nat) : list str :=
  nth s names [] :: map (fun t => if t <=? s then [] else against names w s t) (seq 0 (length names)).
(** every second of some lines *)
Fixpoint seconds (ls : list str) : list str := match ls with _ :: b :: r => b :: seconds r | _ => [] end.
(** the last lines of a report on [n] systems: a line, the names, two lines for each system, and a line *)
Definition grid (n : nat) (report : str) : list str :=
  let ls := removelast (split 10%N report) in skipn (length ls - (2 * n + 3)) ls.
