(** What the alignment log of asclite says, independently of the code in Clog_Model.v: how it is read, and
    what must be found in it. *)
From Coq Require Import String.
From Coq Require Import List ZArith NArith Arith Bool.
From Verif Require Import Base Sgml_Model Clog_Model.
Import ListNotations.
Local Open Scope list_scope.

(** ** Reading *)
Fixpoint split (c : N) (s : list N) : list (list N) :=
  match s with
  | [] => [[]]
  | x :: r => if (x =? c)%N then [] :: split c r else match split c r with h :: t => (x :: h) :: t | [] => [[x]] end
  end.
Fixpoint after (p s : list N) : option (list N) :=
  match p, s with [], _ => Some s | x :: p, y :: s => if (x =? y)%N then after p s else None | _ :: _, [] => None end.
(** the lines of a text that begin with the mark of the alignment log, without it *)
Definition marked (text : list N) : list (list N) :=
  flat_map (fun l => match after (B "[ALIGNMENT] ") l with Some m => [m] | None => [] end) (split 10 text).
Definition list_eqb (a b : list N) : bool := if list_eq_dec N.eq_dec a b then true else false.
(** the field under a heading *)
Fixpoint under (name : list N) (names fields : list (list N)) : option (list N) :=
  match names, fields with
  | n :: ns, f :: fs => if list_eqb n name then Some f else under name ns fs
  | _, _ => None
  end.
(** one side of a line; a field without text is [None] *)
Record side := { q_seg : option Z; q_sbt : option Z; q_set : option Z; q_spkr : list N;
                 q_tok : option Z; q_bt : option Z; q_et : option Z; q_text : list N; q_conf : option Z; q_prev : list Z; q_next : list Z }.
Record entry := { e_kind : list N; e_grp : Z; e_file : list N; e_chan : list N; e_eval : list N; e_sides : list side }.
Definition whole (s : list N) : option Z := match s with [] => None | _ => Some (atoi s) end.
(** a number with three decimals, in thousandths *)
Definition decimal (s : list N) : option (option Z) :=
  match s with [] => Some None | _ => match atof_in 3 s with Ok z => Some (Some z) | _ => None end end.
Definition numbers (s : list N) : list Z := match s with [] => [] | _ => map atoi (split 124 s) end.
Definition read_side (who : string) (names fields : list (list N)) : option side :=
  let f := fun n => match under (B who ++ B n) names fields with Some s => s | None => B "?" end in
  match decimal (f "SegBT"%string), decimal (f "SegET"%string), decimal (f "TknBT"%string), decimal (f "TknET"%string), decimal (f "TknConf"%string) with
  | Some a, Some b, Some c, Some d, Some e =>
      Some {| q_seg := whole (f "SegID"%string); q_sbt := a; q_set := b; q_spkr := f "SpkrID"%string; q_tok := whole (f "TknID"%string);
              q_bt := c; q_et := d; q_text := f "TknTxt"%string; q_conf := e; q_prev := numbers (f "TknPrev"%string); q_next := numbers (f "TknNext"%string) |}
  | _, _, _, _, _ => None
  end.
(** a line under a heading: as many fields as headings *)
Definition read_line (names : list (list N)) (l : list N) : option entry :=
  let fields := split 44 l in
  if length fields =? length names then
    match under (B "Aligned") names fields, under (B "SegGrpID") names fields, under (B "File") names fields, under (B "Channel") names fields,
          under (B "Eval") names fields, read_side "Ref" names fields, read_side "Hyp" names fields with
    | Some k, Some g, Some f, Some c, Some e, Some r, Some h =>
        Some {| e_kind := k; e_grp := atoi g; e_file := f; e_chan := c; e_eval := e; e_sides := [r; h] |}
    | _, _, _, _, _, _, _ => None
    end
  else None.
Fixpoint all_of {A B} (f : A -> option B) (l : list A) : option (list B) :=
  match l with [] => Some [] | x :: r => match f x, all_of f r with Some y, Some t => Some (y :: t) | _, _ => None end end.
(** a log with a heading *)
Definition read_log (text : list N) : option (list entry) :=
  match marked text with h :: l => all_of (read_line (split 44 h)) l | [] => None end.
(** a line of a run without references: five fields, then groups of eleven under the repeated headings *)
Definition five : list (list N) := split 44 (B "Aligned,SegGrpID,File,Channel,Eval").
Definition eleven : list (list N) := split 44 (B "RefSegID,RefSegBT,RefSegET,RefSpkrID,RefTknID,RefTknBT,RefTknET,RefTknTxt,RefTknConf,RefTknPrev,RefTknNext").
Fixpoint chunks (fuel : nat) (l : list (list N)) : option (list (list (list N))) :=
  match l, fuel with
  | [], _ => Some []
  | _, O => None
  | _, S k => if 11 <=? length l then option_map (cons (firstn 11 l)) (chunks k (skipn 11 l)) else None
  end.
Definition read_generic_line (l : list N) : option entry :=
  let fields := split 44 l in
  match fields with
  | k :: g :: f :: c :: e :: r =>
      match chunks (length r) r with
      | Some cs => match all_of (read_side "Ref" eleven) cs with
                   | Some s => Some {| e_kind := k; e_grp := atoi g; e_file := f; e_chan := c; e_eval := e; e_sides := s |}
                   | None => None
                   end
      | None => None
      end
  | _ => None
  end.
Definition join (c : N) (l : list (list N)) : list N :=
  match l with [] => [] | h :: t => h ++ concat (map (fun x => c :: x) t) end.
(** the first line says which headings are repeated *)
Definition read_generic_log (text : list N) : option (list entry) :=
  match marked text with
  | h :: l => if list_eqb h (join 44 five ++ B "[," ++ join 44 eleven ++ B "]*") then all_of read_generic_line l else None
  | [] => None
  end.

(** ** What must be found *)
(** texts that can stand in a field *)
Definition field_ok (s : list N) : Prop := ~ In 44%N s /\ ~ In 10%N s.
Definition some_time (t : Z) : option Z := if (0 <=? t)%Z then Some t else None.
Definition tok_ok (t : tok) : Prop := field_ok (t_text t).
Definition seg_ok (s : seg) : Prop := field_ok (s_spkr s) /\ field_ok (s_file s) /\ field_ok (s_chan s).
Definition segs_ok (l : list (list (seg * list tok))) : Prop := forall sp x, In sp l -> In x sp -> seg_ok (fst x) /\ Forall tok_ok (snd x).
Definition group_ok (g : group) : Prop := segs_ok (g_refs g) /\ segs_ok (g_hyps g).
Definition said_ok (x : option (seg * tok)) : Prop := match x with Some (s, t) => seg_ok s /\ tok_ok t | None => True end.

Definition no_side : side :=
  {| q_seg := None; q_sbt := None; q_set := None; q_spkr := []; q_tok := None; q_bt := None; q_et := None; q_text := []; q_conf := None; q_prev := []; q_next := [] |}.
Definition side_of_seg (s : seg) : side :=
  {| q_seg := Some (s_id s); q_sbt := some_time (s_t1 s); q_set := some_time (s_t2 s); q_spkr := s_spkr s;
     q_tok := None; q_bt := None; q_et := None; q_text := []; q_conf := None; q_prev := []; q_next := [] |}.
Definition side_of (s : seg) (t : tok) : side :=
  {| q_seg := Some (s_id s); q_sbt := some_time (s_t1 s); q_set := some_time (s_t2 s); q_spkr := s_spkr s;
     q_tok := Some (t_id t); q_bt := some_time (t_t1 t); q_et := some_time (t_t2 t); q_text := t_text t; q_conf := t_conf t;
     q_prev := t_prev t; q_next := t_next t |}.
Definition side_of_opt (x : option (seg * tok)) : side := match x with Some (s, t) => side_of s t | None => no_side end.
(** the sides of a segment: its tokens, or itself if it has none *)
Definition sides_of (x : seg * list tok) : list side := match snd x with [] => [side_of_seg (fst x)] | l => map (side_of (fst x)) l end.
Definition entries_of (kind : list N) (id : Z) (arrange : side -> list side) (x : seg * list tok) : list entry :=
  map (fun q => {| e_kind := kind; e_grp := id; e_file := s_file (fst x); e_chan := s_chan (fst x); e_eval := []; e_sides := arrange q |}) (sides_of x).
(** the tokens of the references on the left, then those of the hypotheses on the right *)
Definition group_entries (kind : string) (g : group) : list entry :=
  flat_map (entries_of (B kind) (g_id g) (fun q => [q; no_side])) (concat (g_refs g))
  ++ flat_map (entries_of (B kind) (g_id g) (fun q => [no_side; q])) (concat (g_hyps g)).
(** nothing was said where nothing was to be said *)
Definition silent_gap (g : group) : Prop := g_hyps g = [] /\ exists s l r, g_refs g = [(s, l) :: r] /\ s_spkr s = B "inter_segment_gap".
(** a group without hypothesis is shown with one that says nothing, at no time and place *)
Definition shown (g : group) : group :=
  match g_hyps g with
  | [] => {| g_id := g_id g; g_refs := g_refs g; g_spare := g_spare g;
             g_hyps := [[({| s_id := g_spare g; s_t1 := 0; s_t2 := 0; s_spkr := []; s_file := []; s_chan := [] |}, [])]] |}
  | _ => g
  end.
Definition letter (r : result) : string := match r with RC => "C" | RS => "S" | RP => "P" | RD => "D" | RI => "I" end.
Definition row_entry (x : row) : entry :=
  {| e_kind := B "YES"; e_grp := r_grp x;
     e_file := match r_ref x, r_hyp x with Some (s, _), _ | None, Some (s, _) => s_file s | None, None => [] end;
     e_chan := match r_ref x, r_hyp x with Some (s, _), _ | None, Some (s, _) => s_chan s | None, None => [] end;
     e_eval := B (letter (r_res x)); e_sides := [side_of_opt (r_ref x); side_of_opt (r_hyp x)] |}.
(** a group is listed, before that also as not aligned if it was skipped, but a silent gap is not *)
Inductive listed (skipped : group -> bool) : list group -> list entry -> Prop :=
  | li_nil : listed skipped [] []
  | li_gap g gs l : silent_gap g -> listed skipped gs l -> listed skipped (g :: gs) l
  | li_group g gs l : ~ silent_gap g -> listed skipped gs l ->
      listed skipped (g :: gs) ((if skipped (shown g) then group_entries "NO" (shown g) else []) ++ group_entries "SG" (shown g) ++ l).

(** a column of a run without references: the place is that of its last token *)
Definition place (c : list (option (seg * tok))) (file chan : list N) : Prop :=
  (exists a s t b, c = a ++ Some (s, t) :: b /\ Forall (fun x => x = None) b /\ file = s_file s /\ chan = s_chan s) \/
  (Forall (fun x => x = None) c /\ file = [] /\ chan = []).
Definition column_entry (id : Z) (c : list (option (seg * tok))) (e : entry) : Prop :=
  e_kind e = B "YES" /\ e_grp e = id /\ place c (e_file e) (e_chan e) /\ e_eval e = [] /\ e_sides e = map side_of_opt c.
Inductive listed_generic (skipped : group -> bool) (align : group -> list (list (option (seg * tok)))) : list group -> list entry -> Prop :=
  | lg_nil : listed_generic skipped align [] []
  | lg_skip g gs l : skipped g = true -> listed_generic skipped align gs l ->
      listed_generic skipped align (g :: gs) (group_entries "SG" g ++ group_entries "NO" g ++ l)
  | lg_take g gs cs l : skipped g = false -> Forall2 (column_entry (g_id g)) (align g) cs -> listed_generic skipped align gs l ->
      listed_generic skipped align (g :: gs) (group_entries "SG" g ++ cs ++ l).

(** the messages of a run: those of the alignment log in their order, among others of other levels *)
Definition messages (l : list (Z * list N)) (alog : list (list N)) : Prop :=
  map snd (filter (fun m => (fst m =? 6)%Z) l) = alog /\ Forall (fun m => (0 < fst m <= 6)%Z /\ (fst m <> 6%Z -> ~ In 10%N (snd m))) l.
