(** The printed alignment of a sentence (the .pra files of sclite, the sentence reports and the alignments of
    several systems), /repo/src/sclite/path.c:53-308. *)
From Coq Require Import List Arith ZArith NArith Bool.
From Verif Require Import Base Text_Model NetDp_Model Word_Model Path_Model Alex_Model Dtl_Model.
Import ListNotations.
Local Open Scope res_scope.
Local Open Scope nat_scope.

(** path.h:15-27, the bits of [PATH.attrib] that are used here *)
Record attribs := { at_case : bool;
  at_rwtimes : bool; at_rconf : bool; at_rweight : bool;
  at_hwtimes : bool; at_hconf : bool; at_hweight : bool }.
(** what [fprintf] makes of the numbers of a word with the formats %.2f (times) and %.4f (confidence and
    weight).  [up] below stands for the conversion to upper case, [TEXT_str_to_master], whose result is a
    function of the text (C79). *)
Record numbers := { n_t1 : word -> list N; n_t2 : word -> list N; n_conf : word -> list N; n_weight : word -> list N }.

(** path.c:76-88 *)
Definition aux_max (a : attribs) : nat :=
  if at_hconf a || at_rconf a || at_hwtimes a || at_rwtimes a || at_hweight a || at_rweight a then 7 else 0.
(** path.c:128-131 and 185-196: the lengths in bytes; a missing word counts one *)
Definition lena (s : wstep) : res nat :=
  match s with (_, _, PIns) => Ok 1 | (a, _, _) => let* v := value_of a in Ok (length v) end.
Definition lenb (s : wstep) : res nat :=
  match s with (_, _, PDel) => Ok 1 | (_, b, _) => let* v := value_of b in Ok (length v) end.
(** path.c:132 and 197 *)
Definition wmax (a : attribs) (s : wstep) : res nat :=
  let* x := lena s in
  let* y := lenb s in
  Ok (Nat.max (aux_max a) (Nat.max x y)).
(** path.c:125-136: how many words the loop passes from the first word of a pass on; [plen] is the length of
    the line so far *)
Fixpoint scan (a : attribs) (max : Z) (plen : Z) (l : list wstep) : res nat :=
  match l with
  | [] => Ok 0
  | s :: r =>
      if (plen <? max)%Z then
        let* w := wmax a s in
        let* k := scan a max (plen + 1 + Z.of_nat w) r in
        Ok (S k)
      else Ok 0
  end.
(** the conversion %-Ns, and %Ns for an empty string.  (With N = 0 the standard leaves %-0s undefined; the
    libraries print the string.) *)
Definition pad (n : nat) (s : list N) : list N := s ++ repeat 32%N (n - length s).
(** path.c:204 and 241: the end of a string of 40 stars *)
Definition stars (n : nat) : res (list N) := if n <=? 40 then Ok (repeat 42%N n) else Undef.
(** path.c:205-210 and 242-247: words that are not correct are printed in upper case *)
Definition shown_word (up : list N -> list N) (a : attribs) (ev : eval) (v : list N) : list N :=
  if negb (at_case a) && (match ev with PCorr => false | _ => true end) then up v else v.
(** path.c:199-301: the text of a word on a line *)
Definition cell (up : list N -> list N) (n : numbers) (a : attribs) (line : nat) (s : wstep) : res (list N) :=
  let '(x, y, ev) := s in
  let ref_number f := match ev with PIns => Ok [] | _ => match x with Some w => Ok (f w) | None => Undef end end in
  let hyp_number f := match ev with PDel => Ok [] | _ => match y with Some w => Ok (f w) | None => Undef end end in
  match line with
  | 0 => match ev with
         | PIns => let* k := lenb s in stars k
         | _ => let* v := value_of x in Ok (shown_word up a ev v)
         end
  | 1 => ref_number (n_t1 n)
  | 2 => ref_number (n_t2 n)
  | 3 => ref_number (n_conf n)
  | 4 => match ev with
         | PDel => let* k := lena s in stars k
         | _ => let* v := value_of y in Ok (shown_word up a ev v)
         end
  | 5 => hyp_number (n_t1 n)
  | 6 => hyp_number (n_t2 n)
  | 7 => hyp_number (n_conf n)
  | 8 => ref_number (n_weight n)
  | 9 => hyp_number (n_weight n)
  | _ => Ok (match ev with PIns => [73%N] | PDel => [68%N] | PSub => [83%N] | PCorr => [] end)
  end.
(** path.c:138-181: the lines that are not left out *)
Definition line_on (a : attribs) (line : nat) : bool :=
  match line with
  | 1 | 2 => at_rwtimes a
  | 3 => at_rconf a
  | 5 | 6 => at_hwtimes a
  | 7 => at_hconf a
  | 8 => at_rweight a
  | 9 => at_hweight a
  | _ => true
  end.
(** path.c:138-181: "REF:  ", "R_T1: ", "R_T2: ", "RCNF: ", "HYP:  ", "H_T1: ", "H_T2: ", "CONF: ",
    "R_WE: ", "H_WE: ", "Eval: " *)
Definition title (line : nat) : list N :=
  match line with
  | 0 => [82; 69; 70; 58; 32; 32]%N
  | 1 => [82; 95; 84; 49; 58; 32]%N
  | 2 => [82; 95; 84; 50; 58; 32]%N
  | 3 => [82; 67; 78; 70; 58; 32]%N
  | 4 => [72; 89; 80; 58; 32; 32]%N
  | 5 => [72; 95; 84; 49; 58; 32]%N
  | 6 => [72; 95; 84; 50; 58; 32]%N
  | 7 => [67; 79; 78; 70; 58; 32]%N
  | 8 => [82; 95; 87; 69; 58; 32]%N
  | 9 => [72; 95; 87; 69; 58; 32]%N
  | _ => [69; 118; 97; 108; 58; 32]%N
  end.
(** path.c:183-303: the words of a line *)
Fixpoint cells (up : list N -> list N) (n : numbers) (a : attribs) (line : nat) (l : list wstep) : res (list N) :=
  match l with
  | [] => Ok []
  | s :: r =>
      let* w := wmax a s in
      let* t := cell up n a line s in
      let* u := cells up n a line r in
      Ok (pad w t ++ [32%N] ++ u)
  end.
(** path.c:138-305: the lines of a pass, without the end of line; [more]: it is not the first pass *)
Definition print_lines (up : list N -> list N) (n : numbers) (a : attribs) (more : bool) (l : list wstep) : res (list (list N)) :=
  each (fun line => let* t := cells up n a line l in Ok ((if more then [62; 62; 32]%N else []) ++ title line ++ t)) (filter (line_on a) (seq 0 11)).
(** path.c:124-307: the passes; [l] are the words up to [to].  An empty line is printed before each pass
    that starts after the first word. *)
Fixpoint passes (fuel : nat) (up : list N -> list N) (n : numbers) (a : attribs) (max : Z) (l : list wstep) (used : Z)
  : res (list (list (list N))) :=
  match fuel with
  | O => NoFuel
  | S f =>
      let to := Z.of_nat (length l) in
      if (used <? to)%Z then
        let plen := if (0 <? used)%Z then 9%Z else 6%Z in
        let* k := if (used <? 0)%Z then if (plen <? max)%Z then Undef else Ok 0 else scan a max plen (skipn (Z.to_nat used) l) in
        let i := (used + Z.of_nat k)%Z in
        let endpass := (i - (if (i <? to)%Z then 1 else 0))%Z in
        let* ls := print_lines up n a (0 <? used)%Z (firstn (Z.to_nat (endpass - used)) (skipn (Z.to_nat used) l)) in
        let* r := passes f up n a max l endpass in
        Ok (ls :: r)
      else Ok []
  end.
(** the numbers of the head of a sentence *)
Record head := { h_range : option (Z * Z * nat); h_c : nat; h_s : nat; h_d : nat; h_i : nat }.
(** path.c:69-75 *)
Definition count (ev : eval) (l : list wstep) : nat :=
  length (filter (fun s => match snd s, ev with PCorr, PCorr | PSub, PSub | PIns, PIns | PDel, PDel => true | _, _ => false end) l).
(** path.c:57-308 [PATH_n_print]: the numbers of the head and the passes.  The identifier, labels, file,
    channel, attributes and times of the sentence are left out. *)
Definition n_print (fuel : nat) (up : list N -> list N) (n : numbers) (a : attribs) (path : list wstep) (from to max : Z) : res (head * list (list (list N))) :=
  let num := Z.of_nat (length path) in
  let to := if (num <? to)%Z then num else to in
  let used := if (0 <=? from)%Z && (from <? to)%Z then from else 0%Z in
  let l := firstn (Z.to_nat to) path in
  let seen := skipn (Z.to_nat used) l in
  let* ps := passes fuel up n a max l used in
  Ok ({| h_range := if (negb (from =? 0) || negb (to =? num))%Z then Some (from, to, length path) else None;
         h_c := count PCorr seen; h_s := count PSub seen; h_d := count PDel seen; h_i := count PIns seen |}, ps).
(** path.c:53-55 [PATH_print] *)
Definition print (fuel : nat) (up : list N -> list N) (n : numbers) (a : attribs) (path : list wstep) (max : Z) : res (head * list (list (list N))) :=
  n_print fuel up n a path 0 (Z.of_nat (length path)) max.
