(** What a printed alignment must look like, and how it is read. *)
From Coq Require Import String Ascii List Arith ZArith NArith Bool.
From Verif Require Import NetDp_Model Word_Model Path_Spec Scores_Spec Pra_Model.
Import ListNotations.
Local Open Scope nat_scope.

Definition txt (s : string) : list N := map N_of_ascii (list_ascii_of_string s).

(** ** The texts of a step *)
(** words that are wrong are in upper case, unless case matters *)
Definition show (up : list N -> list N) (case : bool) (ev : eval) (w : word) : list N :=
  match ev with PCorr => w_value w | _ => if case then w_value w else up (w_value w) end.
(** a missing word is shown as stars, as many as the other word has letters *)
Definition ref_side (up : list N -> list N) (case : bool) (s : step word) : list N :=
  match s with
  | (Some a, _, ev) => show up case ev a
  | (None, Some b, _) => repeat 42%N (length (w_value b))
  | _ => []
  end.
Definition hyp_side (up : list N -> list N) (case : bool) (s : step word) : list N :=
  match s with
  | (_, Some b, ev) => show up case ev b
  | (Some a, None, _) => repeat 42%N (length (w_value a))
  | _ => []
  end.
Definition mark (s : step word) : list N :=
  match snd s with PCorr => [] | PSub => txt "S" | PIns => txt "I" | PDel => txt "D" end.
Definition on_ref (f : word -> list N) (s : step word) : list N := match s with (Some a, _, _) => f a | _ => [] end.
Definition on_hyp (f : word -> list N) (s : step word) : list N := match s with (_, Some b, _) => f b | _ => [] end.

(** ** The lines *)
Definition only (b : bool) {A} (l : list A) : list A := if b then l else [].
Definition lines (up : list N -> list N) (n : numbers) (a : attribs) : list (list N * (step word -> list N)) :=
  [(txt "REF:  ", ref_side up (at_case a))]
  ++ only (at_rwtimes a) [(txt "R_T1: ", on_ref (n_t1 n)); (txt "R_T2: ", on_ref (n_t2 n))]
  ++ only (at_rconf a) [(txt "RCNF: ", on_ref (n_conf n))]
  ++ [(txt "HYP:  ", hyp_side up (at_case a))]
  ++ only (at_hwtimes a) [(txt "H_T1: ", on_hyp (n_t1 n)); (txt "H_T2: ", on_hyp (n_t2 n))]
  ++ only (at_hconf a) [(txt "CONF: ", on_hyp (n_conf n))]
  ++ only (at_rweight a) [(txt "R_WE: ", on_ref (n_weight n))]
  ++ only (at_hweight a) [(txt "H_WE: ", on_hyp (n_weight n))]
  ++ [(txt "Eval: ", mark)].
(** columns are as wide as the longer word, and seven bytes wide if there are numbers *)
Definition least (a : attribs) : nat :=
  if at_rwtimes a || at_rconf a || at_rweight a || at_hwtimes a || at_hconf a || at_hweight a then 7 else 0.
Definition len (w : option word) : nat := match w with Some w => length (w_value w) | None => 1 end.
Definition col (a : attribs) (s : step word) : nat := Nat.max (least a) (Nat.max (len (fst (fst s))) (len (snd (fst s)))).
Definition blanks (n : nat) : list N := repeat 32%N n.
Definition fill (w : nat) (t : list N) : list N := t ++ blanks (w - length t).
Definition row (a : attribs) (first : bool) (p : list (step word)) (t : list N * (step word -> list N)) : list N :=
  (if first then [] else txt ">> ") ++ fst t ++ flat_map (fun s => fill (col a s) (snd t s) ++ blanks 1) p.
(** the steps in groups, one for each set of lines *)
Fixpoint printed (up : list N -> list N) (n : numbers) (a : attribs) (first : bool) (ps : list (list (step word))) : list (list (list N)) :=
  match ps with
  | [] => []
  | p :: r => map (row a first p) (lines up n a) :: printed up n a false r
  end.

(** ** Breaking lines *)
Definition width (a : attribs) (first : bool) (p : list (step word)) : nat :=
  (if first then 6 else 9) + list_sum (map (fun s => S (col a s)) p).
(** no line but the last is as long as [max], none could hold a step more, and the last one is not without
    its last step *)
Fixpoint broken (a : attribs) (max : nat) (first : bool) (ps : list (list (step word))) : Prop :=
  match ps with
  | [] => True
  | [p] => p <> [] /\ width a first (removelast p) < max
  | p :: (((s :: _) :: _) as r) => p <> [] /\ width a first p < max <= width a first (p ++ [s]) /\ broken a max false r
  | _ => False
  end.

(** ** Reading the lines *)
Fixpoint token (l : list N) : list N :=
  match l with
  | [] => []
  | b :: r => if (b =? 32)%N then [] else b :: token r
  end.
(** the steps shown by three lines without their titles *)
Definition understood : Type := (option (list N) * option (list N) * eval)%type.
Definition step_of (r h m : list N) : option understood :=
  if list_eq_dec N.eq_dec m [] then Some (Some r, Some h, PCorr)
  else if list_eq_dec N.eq_dec m (txt "S") then Some (Some r, Some h, PSub)
  else if list_eq_dec N.eq_dec m (txt "I") then Some (None, Some h, PIns)
  else if list_eq_dec N.eq_dec m (txt "D") then Some (Some r, None, PDel)
  else None.
Fixpoint read_columns (fuel : nat) (least : nat) (r h m : list N) : option (list understood) :=
  match fuel with
  | O => None
  | S f =>
      match r with
      | [] => Some []
      | _ => let w := Nat.max least (Nat.max (length (token r)) (length (token h))) in
             match step_of (token r) (token h) (token m), read_columns f least (skipn (S w) r) (skipn (S w) h) (skipn (S w) m) with
             | Some s, Some l => Some (s :: l)
             | _, _ => None
             end
      end
  end.
Fixpoint after (p l : list N) : option (list N) :=
  match p, l with
  | [], _ => Some l
  | a :: p', b :: l' => if (a =? b)%N then after p' l' else None
  | _, [] => None
  end.
(** the line with a title *)
Fixpoint titled (t : list N) (ls : list (list N)) : option (list N) :=
  match ls with
  | [] => None
  | l :: r => match after t l with Some x => Some x | None => titled t r end
  end.
Definition read_lines (least : nat) (first : bool) (ls : list (list N)) : option (list understood) :=
  let pre := if first then [] else txt ">> " in
  match titled (pre ++ txt "REF:  ") ls, titled (pre ++ txt "HYP:  ") ls, titled (pre ++ txt "Eval: ") ls with
  | Some r, Some h, Some m => read_columns (S (length r)) least r h m
  | _, _, _ => None
  end.
Fixpoint read_all (least : nat) (first : bool) (out : list (list (list N))) : option (list understood) :=
  match out with
  | [] => Some []
  | ls :: r => match read_lines least first ls, read_all least false r with
               | Some x, Some y => Some (x ++ y)
               | _, _ => None
               end
  end.
(** what there is to be understood of a step *)
Definition meant (up : list N -> list N) (case : bool) (s : step word) : understood :=
  let '(a, b, ev) := s in (option_map (show up case ev) a, option_map (show up case ev) b, ev).
