(** Vocabulary of the properties of the scoring of a CTM file against an STM file. *)
From Coq Require Import List NArith ZArith Bool.
From Verif Require Import Base Chan_Model.
Import ListNotations.
Local Open Scope Z_scope.

(** The same letters, in upper or lower case. *)
Definition says (p a : str) : Prop := map lower a = map lower p.
(** The word begins with "<ALT". *)
Definition alt_mark (w : word) : Prop := exists p r, sp w = p ++ r /\ says ALT p.
(** A text that asks not to be scored. *)
Definition unscored (t : str) : Prop :=
  exists a b c, t = a ++ b ++ c /\ (says IGNORE_1 b \/ says IGNORE_2 b).

(** The hypothesis as a sequence of words and alternations. *)
Inductive unit := Word (w : word) | Alts (b : word) (body : list word) (e : word).
Definition spell (u : unit) : list word :=
  match u with Word w => [w] | Alts b body e => b :: body ++ [e] end.
Definition well_formed (u : unit) : Prop :=
  match u with
  | Word w => ~ alt_mark w
  | Alts b body e => says ALT_BEGIN (sp b) /\ Forall (fun w => ~ says ALT_END (sp w)) body /\ says ALT_END (sp e)
  end.
Definition Units (ws : list word) (us : list unit) : Prop :=
  ws = flat_map spell us /\ Forall well_formed us.

(** Twice the middle of a word in time; of an alternation: the largest one of its words, not
    less than 0. *)
Definition middle (u : unit) (m : Z) : Prop :=
  match u with
  | Word w => m = 2 * t1 w + dur w
  | Alts b body e =>
      0 <= m /\ (forall w, In w (spell u) -> ~ alt_mark w -> 2 * t1 w + dur w <= m) /\
      (m = 0 \/ exists w, In w (spell u) /\ ~ alt_mark w /\ m = 2 * t1 w + dur w)
  end.
Definition before (u : unit) (t : Z) : Prop := exists m, middle u m /\ m < 2 * t.

(** The words of a channel given to its segments.  A segment takes what has its middle before
    its end, up to the first unit that has not; the last one takes all the rest; a segment that
    is not used takes nothing.  The last argument is what nobody takes. *)
Inductive Given (used : seg -> Prop) : list seg -> list unit -> list (seg * list unit) -> list unit -> Prop :=
| g_nil us : Given used [] us [] us
| g_skip s r us gs lf : ~ used s -> Given used r us gs lf -> Given used (s :: r) us gs lf
| g_last s us : used s -> Given used [s] us [(s, us)] []
| g_take s r us us' gs lf : used s -> r <> [] ->
    Forall (fun u => before u (s_t2 s)) us ->
    match us' with u :: _ => ~ before u (s_t2 s) | [] => True end ->
    Given used r us' gs lf -> Given used (s :: r) (us ++ us') ((s, us) :: gs) lf.

(** With "-m ref" a segment is used if it meets the time from the begin of the first word to the
    end of the last one. *)
Definition used (o : opts) (ws : list word) (s : seg) : Prop :=
  reduce_ref o = true ->
  match ws with
  | [] => True
  | w0 :: _ => t1 w0 < s_t2 s /\ s_t1 s < t1 (last ws w0) + dur (last ws w0)
  end.

(** What a result says. *)
Definition shows (hyp : list word) (stm : list seg) (c : cut) (g : seg * list unit) : Prop :=
  nth_error stm (Z.to_nat (c_seg c)) = Some (fst g) /\ 0 <= c_seg c /\
  words_of hyp (c_from c) (c_to c) = flat_map spell (snd g) /\
  (c_scored c = true <-> ~ unscored (text (fst g))).

(** Runs of elements with the same key. *)
Inductive Runs {A K} (key : A -> K) : list A -> list (K * list A) -> Prop :=
| r_nil : Runs key [] []
| r_cons k l rest rs : l <> [] -> Forall (fun x => key x = k) l -> Runs key rest rs ->
    match rs with (k', _) :: _ => k' <> k | [] => True end -> Runs key (l ++ rest) ((k, l) :: rs).
Definition word_key (w : word) : str * str := (conv w, turn w).
Definition seg_key (s : seg) : str * str := (file s, chan s).

(** The channels of the reference with those of the hypothesis, both in the order of the files: a
    channel of the reference goes with the next one of the hypothesis if it has the same name,
    with nothing otherwise. *)
Inductive Pairing : list (str * str * list seg) -> list (str * str * list word) -> list (list seg * list word) -> Prop :=
| p_nil : Pairing [] [] []
| p_same k s w R H P : Pairing R H P -> Pairing ((k, s) :: R) ((k, w) :: H) ((s, w) :: P)
| p_none k s R H P : match H with (k', _) :: _ => k' <> k | [] => True end ->
    Pairing R H P -> Pairing ((k, s) :: R) H ((s, []) :: P).

(** The time of the reference segments in use, and a word outside of it. *)
Definition out_of (segs : list seg) (w : word) : Prop :=
  (forall s, In s segs -> s_t2 s < t1 w) \/ (forall s, In s segs -> t1 w + dur w < s_t1 s).
(** The flags "ignore" of a unit. *)
Definition unit_flags (segs : list seg) (u : unit) (fs : list bool) : Prop :=
  match u with
  | Word w => exists f, fs = [f] /\ (f = true <-> out_of segs w)
  | Alts b body e => exists f, fs = repeat f (S (length body)) ++ [false] /\
      (f = true <-> forall w, In w body -> ~ alt_mark w -> out_of segs w)
  end.
