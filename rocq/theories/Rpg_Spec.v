(** What a printed table must look like. *)
From Coq Require Import List Arith ZArith NArith Bool.
From Verif Require Import Base Rpg_Model.
Import ListNotations.
Local Open Scope nat_scope.

(** ** Rows as they are asked for *)
(** A column: how its text is placed (l, r, c; a capital letter: the text may be broken at blanks; a: the
    column belongs to the cell before), and what stands between it and the next: a blank, | or = (a
    double bar) *)
Record srow := { s_cols : list (N * N); s_vals : list (list N); s_before : list N; s_after : list N }.
Definition spell (cols : list (N * N)) : list N :=
  flat_map (fun c => fst c :: (if (snd c =? 32)%N then [] else [snd c])) cols.
Definition visible (cols : list (N * N)) : list (N * N) := filter (fun c => negb (fst c =? 97)%N) cols.
(** a double bar is followed by a column of another cell *)
Fixpoint bars_between (cols : list (N * N)) : Prop :=
  match cols with
  | [] => True
  | (_, i) :: r => (i = 61%N -> match r with (j, _) :: _ => j <> 97%N | [] => False end) /\ bars_between r
  end.
Definition good_row (r : srow) : Prop :=
  s_cols r <> [] /\ fst (hd (97%N, 0%N) (s_cols r)) <> 97%N
  /\ Forall (fun c => In (fst c) [99; 67; 108; 76; 114; 82; 97]%N /\ In (snd c) [32; 124; 61]%N) (s_cols r)
  /\ bars_between (s_cols r) /\ length (spell (s_cols r)) < 100
  /\ length (s_vals r) = length (visible (s_cols r)) /\ Forall (fun v => length v < 2000) (s_vals r)
  /\ (s_after r <> [] -> Forall (fun c => snd c <> 61%N) (s_cols r)).
(** the calls that make the row *)
Definition calls (r : srow) : list op :=
  map (fun c => Separation c true) (s_before r) ++ map (fun c => Separation c false) (s_after r)
  ++ [Row (spell (s_cols r)) (s_vals r)].

(** ** Texts *)
(** the lines a text asks for: it is broken at // *)
Fixpoint parts_from (cur l : list N) : list (list N) :=
  match l with
  | [] => [cur]
  | c :: r =>
      match r with
      | d :: r' => if ((c =? 47) && (d =? 47))%N then cur :: match r' with [] => [] | _ => parts_from [] r' end
                   else parts_from (cur ++ [c]) r
      | [] => parts_from (cur ++ [c]) r
      end
  end.
Definition parts (v : list N) : list (list N) := match v with [] => [] | _ => parts_from [] v end.
(** its words: what stands between blanks and // *)
Definition nonempty (w : list N) : list (list N) := match w with [] => [] | _ => [w] end.
Fixpoint words_from (cur l : list N) : list (list N) :=
  match l with
  | [] => nonempty cur
  | c :: r =>
      match r with
      | d :: r' => if ((c =? 47) && (d =? 47))%N then nonempty cur ++ words_from [] r'
                   else if (c =? 32)%N then nonempty cur ++ words_from [] r else words_from (cur ++ [c]) r
      | [] => if (c =? 32)%N then nonempty cur else nonempty (cur ++ [c])
      end
  end.
Definition words (v : list N) : list (list N) := words_from [] v.
(** no // is followed by a blank *)
Fixpoint no_blank_break (v : list N) : Prop :=
  match v with
  | [] => True
  | c :: r => firstn 3 v <> [47; 47; 32]%N /\ no_blank_break r
  end.
(** The lines in which a cell [tw] bytes wide shows the text [v]: they have its words in order; if the text may
    not be broken they are its parts. *)
Definition shows (j : N) (tw : nat) (v : list N) (ps : list (list N)) : Prop :=
  Forall (fun p => length p <= tw) ps /\ flat_map words ps = words v /\ (v = [] -> ps = [])
  /\ (In j [99; 108; 114]%N -> no_blank_break v -> ps = parts v).

(** ** Lines *)
Definition bl (n : nat) : list N := repeat 32%N n.
(** a text in its cell: the cell is [cw] wide, its inner part [tw] *)
Definition placed (j : N) (tw cw : nat) (p : list N) : list N :=
  let a := (cw - tw) / 2 in
  let front := if existsb (N.eqb j) [108; 76]%N then 0
               else if existsb (N.eqb j) [114; 82]%N then tw - length p else (tw - length p) / 2 in
  bl a ++ bl front ++ p ++ bl (tw - length p - front) ++ bl (cw - tw - a).
(** the cells of a row: how the text is placed, and the separator after the cell *)
Fixpoint end_sep (i : N) (r : list (N * N)) : N :=
  match r with (j, i') :: r' => if (j =? 97)%N then end_sep i' r' else i | [] => i end.
Fixpoint cells (cols : list (N * N)) : list (N * N) :=
  match cols with
  | [] => []
  | (j, i) :: r => (if (j =? 97)%N then [] else [(j, end_sep i r)]) ++ cells r
  end.
Definition bar_of (i : N) : list N := if (i =? 61)%N then [124; 124]%N else [i].
(** cells and what is between them *)
Fixpoint between (cs : list (list N)) (ms : list (list N)) : list N :=
  match cs with
  | [] => []
  | [c] => c
  | c :: cs => match ms with m :: ms => c ++ m ++ between cs ms | [] => c ++ between cs [] end
  end.
Definition closed (l : list N) : list N := [124%N] ++ l ++ [124%N].
(** the line of a row that shows the texts [ps] *)
Fixpoint map3 {A B D E} (f : A -> B -> D -> E) (u : list A) (v : list B) (w : list D) : list E :=
  match u, v, w with a :: u, b :: v, d :: w => f a b d :: map3 f u v w | _, _, _ => [] end.
Definition text_line (cs : list (N * N)) (W : list (nat * nat)) (ps : list (list N)) : list N :=
  closed (between (map3 (fun c tc p => placed (fst c) (fst tc) (snd tc) p) cs W ps) (map (fun c => bar_of (snd c)) cs)).
(** ** Separations *)
(** the number of the last column of every cell *)
Fixpoint span (r : list (N * N)) : nat :=
  match r with (j, _) :: r => if (j =? 97)%N then S (span r) else 0 | [] => 0 end.
Fixpoint ends (k : nat) (cols : list (N * N)) : list nat :=
  match cols with
  | [] => []
  | (j, _) :: r => (if (j =? 97)%N then [] else [k + span r]) ++ ends (S k) r
  end.
Definition is_bar (i : N) : bool := ((i =? 124) || (i =? 61))%N.
(** the row above has a bar after column [k] *)
Definition bar_above (above : option (list (N * N))) (k : nat) : bool :=
  match above with Some cols => match nth_error cols k with Some (_, i) => is_bar i | None => false end | None => false end.
(** A separation above a row is made with the byte [p]: a blank one shows the bars; one of - has a + where this row
    and the one above have a bar. *)
Definition mark (above : option (list (N * N))) (p : N) (ik : N * nat) : list N :=
  let '(i, k) := ik in
  if (p =? 32)%N then bar_of i
  else map (fun _ => if (p =? 45)%N && is_bar i && bar_above above k then 43%N else p) (bar_of i).
Definition filled (W : list (nat * nat)) (p : N) : list (list N) := map (fun tc => repeat p (snd tc)) W.
Definition line_above (above : option (list (N * N))) (cols : list (N * N)) (W : list (nat * nat)) (p : N) : list N :=
  closed (between (filled W p) (map (mark above p) (combine (map snd (cells cols)) (ends 0 cols)))).
(** in a separation below a row made with - there may be a + at a bar *)
Definition mark_below (p i : N) (m : list N) : Prop :=
  if (p =? 32)%N then m = [i] else m = [p] \/ (p = 45%N /\ i = 124%N /\ m = [43%N]).
Definition line_below (cols : list (N * N)) (W : list (nat * nat)) (p : N) (l : list N) : Prop :=
  exists ms, Forall2 (mark_below p) (map snd (cells cols)) ms /\ l = closed (between (filled W p) ms).

(** ** Rows *)
(** the [k]-th line of a cell; when its lines are used up it is empty *)
Definition at_line (pss : list (list (list N))) (k : nat) : list (list N) := map (fun ps => nth k ps []) pss.
(** the lines of a row whose cells have the sizes [W] *)
Definition row_shown (W : list (nat * nat)) (above : option (list (N * N))) (r : srow) (ls : list (list N)) : Prop :=
  let cs := cells (s_cols r) in
  length W = length cs /\
  exists pss below, length pss = length cs
    /\ Forall2 (fun cw vp => shows (fst (fst cw)) (fst (snd cw)) (fst vp) (snd vp)) (combine cs W) (combine (s_vals r) pss)
    /\ Forall2 (line_below (s_cols r) W) (s_after r) below
    /\ ls = map (line_above above (s_cols r) W) (s_before r)
            ++ map (fun k => text_line cs W (at_line pss k)) (seq 0 (fold_right Nat.max 1 (map (@length _) pss))) ++ below.
Fixpoint rows_shown (W : list (N * N) -> list (nat * nat)) (above : option (list (N * N))) (rows : list srow) (lss : list (list (list N))) : Prop :=
  match rows, lss with
  | [], [] => True
  | r :: rows, ls :: lss => row_shown (W (s_cols r)) above r ls /\ rows_shown W (Some (s_cols r)) rows lss
  | _, _ => False
  end.
(** the first and the last line *)
Definition top (w : nat) : list N := [44%N] ++ repeat 45%N (w - 2) ++ [46%N].
Definition bottom (w : nat) : list N := [96%N] ++ repeat 45%N (w - 2) ++ [39%N].
(** in the middle of a page *)
Definition on_page (page : option nat) (w : nat) (l : list N) : list N :=
  match page with Some pw => bl ((pw - w) / 2) ++ l | None => l end.

(** ** Sizes *)
(** what is asked of the rounding: of [u] bytes the first [k] of [n] columns get a share that grows, and all
    columns get all *)
Definition fair (spread : nat -> nat -> nat -> nat) : Prop :=
  (forall u n k k', k <= k' -> spread u n k <= spread u n k') /\ (forall u n, 0 < n -> spread u n n = u).
(** the width a text needs *)
Definition longest (ls : list (list N)) : nat := fold_right (fun l m => Nat.max (length l) m) 0 ls.
Definition needs (j : N) (v : list N) : nat := longest (if existsb (N.eqb j) [67; 76; 82]%N then words v else parts v).
(** no cell has more than one column, and no line of an unbroken text begins with a blank *)
Definition simple_row (r : srow) : Prop :=
  Forall (fun c => fst c <> 97%N) (s_cols r) /\ Forall no_blank_break (s_vals r).
(** what column [c] needs in the rows of [n] columns *)
Definition column_needs (rows : list srow) (n c : nat) : nat :=
  fold_right Nat.max 0
    (map (fun r => if length (s_cols r) =? n then needs (fst (nth c (s_cols r) (97%N, 0%N))) (nth c (s_vals r) []) else 0) rows).
