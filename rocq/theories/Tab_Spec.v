(** What the tables of asclite show. *)
From Coq Require Import String List ZArith NArith Arith Bool QArith.
From Verif Require Import Base Store_Model Stats_Spec Rep_Model.
Import ListNotations.
Local Open Scope nat_scope.
Local Notation length := List.length.

(** ** Texts *)
(** The words between the blanks of a line *)
Fixpoint words_after (w : str) (s : str) : list str :=
  match s with
  | [] => match w with [] => [] | _ => [w] end
  | c :: r => if (c =? 32)%N then match w with [] => words_after [] r | _ => w :: words_after [] r end else words_after (w ++ [c]) r
  end.
Definition words (s : str) : list str := words_after [] s.
Definition digit (c : N) : Prop := (48 <= c <= 57)%N.
Definition value (s : str) : N := fold_left (fun a c => a * 10 + (c - 48))%N s 0%N.
(** A number in decimal digits, without superfluous zeros *)
Definition decimal (n : N) (s : str) : Prop := Forall digit s /\ value s = n /\ 1 <= length s /\ (1 < length s -> hd 0%N s <> 48%N).
Definition shows_count (n : nat) (s : str) : Prop := decimal (N.of_nat n) s.
(** The number z / 10^p with p digits after the point *)
Definition point (p : nat) (z : Z) (s : str) : Prop :=
  exists a b n, s = (if (z <? 0)%Z then [45%N] else []) ++ a ++ [46%N] ++ b
    /\ decimal n a /\ Forall digit b /\ length b = p /\ value (a ++ b) = Z.abs_N z.
(** The nearest number with p digits after the point; of two, that away from zero *)
Definition nearest (p : nat) (x : Q) (z : Z) : Prop :=
  let y := (x * inject_Z (10 ^ Z.of_nat p))%Q in
  ((0 <= x -> inject_Z z - (1 # 2) <= y /\ y < inject_Z z + (1 # 2)) /\ (x <= 0 -> inject_Z z - (1 # 2) < y /\ y <= inject_Z z + (1 # 2)))%Q.
Definition shows (p : nat) (x : Q) (s : str) : Prop := exists z, nearest p x z /\ point p z s.
(** The nearest one to the square root of v *)
Definition shows_root (p : nat) (v : Q) (s : str) : Prop :=
  exists z, (0 <= z)%Z /\ point p z s
    /\ let y := (v * inject_Z (100 ^ Z.of_nat p))%Q in
       ((1 <= z)%Z -> (inject_Z z - (1 # 2)) * (inject_Z z - (1 # 2)) <= y)%Q /\ (y < (inject_Z z + (1 # 2)) * (inject_Z z + (1 # 2)))%Q.

(** ** Speakers *)
(** The order of the names, byte by byte; the end is before every byte *)
Inductive earlier : str -> str -> Prop :=
| e_end y b : earlier [] (y :: b)
| e_less x y a b : (x < y)%N -> earlier (x :: a) (y :: b)
| e_same x a b : earlier a b -> earlier (x :: a) (x :: b).
(** What the counters of a speaker always satisfy *)
Definition counted (d : datas) : Prop :=
  d_refs d = d_corr d + d_sub d + d_spk d + d_del d /\ d_segerrs d <= d_segs d /\ 1 <= d_segs d.
Definition errors (d : datas) : nat := d_sub d + d_spk d + d_del d + d_ins d.
(** The columns after the bar: the speaker errors are there on demand *)
Definition counts (inc : bool) : list (datas -> nat) :=
  [d_corr; d_sub] ++ (if inc then [d_spk] else []) ++ [d_del; d_ins; errors].
Definition no_words (m : list (str * datas)) : Prop := exists e, In e m /\ d_refs (snd e) = 0.
Definition all (f : datas -> nat) (m : list (str * datas)) : nat := list_sum (map (fun e => f (snd e)) m).
Definition q (n : nat) : Q := inject_Z (Z.of_nat n).
Definition ratio (a b : nat) : Q := (100 * q a / q b)%Q.

(** ** Lines *)
(** A line begins with a bar, a name with blanks, and a bar; then there are the words [ws]. *)
Definition starts_with (name : str) (ws : list str) (l : str) : Prop :=
  exists i j rest, l = bytes "| " ++ repeat 32%N i ++ name ++ repeat 32%N j ++ bytes " | " ++ rest /\ words rest = ws.
Definition row (name segs refs : str) (vals : list str) (serr nce : str) (l : str) : Prop :=
  starts_with name ([segs; refs; bytes "|"] ++ vals ++ [serr; bytes "|"; nce; bytes "|"]) l.
(** A text with blanks around, and a line of one character between ends *)
Definition centred (t : str) (l : str) : Prop := exists i k, l = repeat 32%N i ++ t ++ repeat 32%N k.
Definition ruled (e c : string) (l : str) : Prop := exists n, l = bytes e ++ concat (repeat (bytes c) n) ++ bytes e.
Definition titles (inc : bool) : list str :=
  map bytes (["Corr"; "Sub"]%string ++ (if inc then ["SpSub"]%string else []) ++ ["Del"; "Ins"; "Err"]%string).
Definition explanations : list str :=
  [bytes "* No Reference words for this(these) speaker(s). Word counts supplied"; bytes "  rather than percents.";
   bytes "# No Reference words for this(these) speaker(s). NCE not computable."; bytes "+ Speaker(s) with no reference data is(are) ignored."].
(** A cell of a speaker: the count, with a star in the table of percentages if the speaker has no reference words; or
    the percentage *)
Definition speaker_value (raw : bool) (d : datas) (f : datas -> nat) (s : str) : Prop :=
  if raw then shows_count (f d) s
  else if d_refs d =? 0 then exists t, shows_count (f d) t /\ s = t ++ bytes "*"
  else shows 1 (ratio (f d) (d_refs d)) s.
Definition speaker_nce (d : datas) (x : Q) (s : str) : Prop :=
  if d_refs d =? 0 then s = bytes "#"
  else ((x < - 1000 -> s = bytes "-inf") /\ (1000 < x -> s = bytes "+inf") /\ (- 1000 <= x <= 1000 -> shows 3 x s))%Q.
Definition speaker_row (raw inc : bool) (name : str) (d : datas) (nce : Q) (l : str) : Prop :=
  exists segs refs vals serr n, row name segs refs vals serr n l
    /\ shows_count (d_segs d) segs /\ shows_count (d_refs d) refs
    /\ Forall2 (speaker_value raw d) (counts inc) vals
    /\ (if raw then shows_count (d_segerrs d) serr else shows 1 (ratio (d_segerrs d) (d_segs d)) serr)
    /\ speaker_nce d nce n.
(** The sums over all speakers, or the percentages of the sums *)
Definition sum_row (raw inc : bool) (m : list (str * datas)) (nce : Q) (l : str) : Prop :=
  exists segs refs vals serr n, row (bytes (if raw then "Sum" else "Sum/Avg")) segs refs vals serr n l
    /\ shows_count (all d_segs m) segs /\ shows_count (all d_refs m) refs
    /\ Forall2 (fun f s => if raw then shows_count (all f m) s else shows 1 (ratio (all f m) (all d_refs m)) s) (counts inc) vals
    /\ (if raw then shows_count (all d_segerrs m) serr else shows 1 (ratio (all d_segerrs m) (all d_segs m)) serr)
    /\ shows 3 nce n.
(** The values of a column: those of the speakers with reference words *)
Definition spoke (m : list (str * datas)) : list datas := filter (fun d => negb (d_refs d =? 0)) (map snd m).
Definition values (raw : bool) (m : list (str * datas)) (f : datas -> nat) : list Q :=
  map (fun d => if raw then q (f d) else ratio (f d) (d_refs d)) (spoke m).
Definition every (m : list (str * datas)) (f : datas -> nat) : list Q := map (fun e => q (f (snd e))) m.
Definition serrs (raw : bool) (m : list (str * datas)) : list Q :=
  map (fun e => if raw then q (d_segerrs (snd e)) else ratio (d_segerrs (snd e)) (d_segs (snd e))) m.
Definition within (x b : Q) : Prop := (- b <= x <= b)%Q.
Definition nces (m : list (str * datas)) (nce : str -> Q) : list Q :=
  map (fun e => nce (fst e)) (filter (fun e => negb (d_refs (snd e) =? 0) && Qle_bool (nce (fst e)) 1000 && Qle_bool (- 1000) (nce (fst e))) m).
(** A line of statistics; [stat p l s] says that [s] shows the statistic of [l] with [p] decimals, and the columns of
    [counts] have a mark if speakers are left out *)
Definition stat_row (raw inc : bool) (m : list (str * datas)) (nce : str -> Q) (label : str) (stat : nat -> list Q -> str -> Prop) (l : str) : Prop :=
  exists segs refs vals mark serr n, row label segs refs (map (fun v => v ++ mark) vals) serr n l
    /\ (no_words m -> mark = bytes "+") /\ (~ no_words m -> mark = [])
    /\ stat 1 (every m d_segs) segs /\ stat 1 (every m d_refs) refs
    /\ Forall2 (fun f s => stat 1 (values raw m f) s) (counts inc) vals
    /\ stat 1 (serrs raw m) serr /\ stat 3 (nces m nce) n.
(** All lists of values of a table, with the largest number there is room for *)
Definition all_values (raw inc : bool) (m : list (str * datas)) (nce : str -> Q) : list (list Q * Q) :=
  (every m d_segs, 999%Q) :: (every m d_refs, 9999%Q) :: (serrs raw m, 9999%Q) :: (nces m nce, 9999%Q)
  :: map (fun f => (values raw m f, 9999%Q)) (counts inc).
Definition mean_of (p : nat) (l : list Q) (s : str) : Prop := match l with [] => shows p 0 s | _ => shows p (average l) s end.
Definition is_median (l : list Q) (x : Q) : Prop := exists a b, lower_median a l /\ upper_median b l /\ (x == (a + b) / 2)%Q.
Definition median_of (p : nat) (l : list Q) (s : str) : Prop :=
  match l with [] => shows p 0 s | _ => exists x, is_median l x /\ shows p x s end.
Definition deviation_of (p : nat) (l : list Q) (s : str) : Prop :=
  match l with [] => shows p 0 s | _ => shows_root p (sample_variance l) s end.
