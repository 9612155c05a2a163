(** What the stores mean, read off the history of operations. *)
From Coq Require Import List ZArith NArith Bool String.
From Verif Require Import Base Store_Model.
Import ListNotations.

(** * Speaker map *)

(** A registration: file, channel, system speaker, reference speaker. *)
Record registration := { g_file : str; g_channel : str; g_sys : str; g_ref : str }.

Definition same_str (a b : str) : bool := if list_eq_dec N.eq_dec a b then true else false.

(** The reference speaker of the first registration for a file, channel and system speaker. *)
Fixpoint first_ref (h : list registration) (f c s : str) : str :=
  match h with
  | [] => []
  | g :: r => if same_str (g_file g) f && same_str (g_channel g) c && same_str (g_sys g) s
              then g_ref g else first_ref r f c s
  end.

(** The map after the registrations. *)
Definition register_all (h : list registration) : smap str :=
  fold_left (fun m g => set_sys_ref m (g_file g) (g_channel g) (g_sys g) (g_ref g)) h [].

Definition no_bar (s : str) : Prop := ~ In 124%N s.
Definition no_comma (s : str) : Prop := ~ In 44%N s.

(** A line of the speaker file, by its columns. *)
Record csv := { v_file : str; v_channel : str; v_ref : str; v_sys : str; v_mapped : str; v_time : str }.
Definition csv_line (v : csv) : str :=
  v_file v ++ bytes "," ++ v_channel v ++ bytes "," ++ v_ref v ++ bytes "," ++ v_sys v ++ bytes ","
  ++ v_mapped v ++ bytes "," ++ v_time v.
Definition csv_ok (v : csv) : Prop :=
  (no_comma (v_file v) /\ no_comma (v_channel v) /\ no_comma (v_ref v) /\ no_comma (v_sys v) /\
   no_comma (v_mapped v) /\ no_comma (v_time v)) /\
  no_bar (v_file v) /\ no_bar (v_channel v) /\
  (forall r, v_file v <> bytes "#" ++ r) /\
  csv_line v <> bytes "File,Channel,RefSpeaker,SysSpeaker,isMapped,timeOverlap".

(** The registrations a file stands for: its rows marked "mapped". *)
Definition mapped_rows (l : list csv) : list registration :=
  map (fun v => {| g_file := v_file v; g_channel := v_channel v; g_sys := v_sys v; g_ref := v_ref v |})
      (filter (fun v => same_str (v_mapped v) (bytes "mapped")) l).

(** * Properties *)

Inductive prop_op :=
| PSet (name value : str)
| PInit (initial : smap str)
| PGet (name : str).

(** The documented defaults. *)
Definition defaults : list (string * string) :=
  [("align.case_sensitive", "false"); ("align.fragment_are_correct", "false");
   ("align.optionally", "none"); ("align.timepruneoptimization", "false");
   ("align.timepruneoptimizationthreshold", "0"); ("align.timewordoptimization", "false");
   ("align.timewordoptimizationthreshold", "0"); ("align.speakeroptimization", "false");
   ("align.adaptivecost", "false"); ("recording.maxspeakeroverlaping", "4");
   ("recording.maxoverlapinghypothesis", "1"); ("recording.maxnbofgb", "2");
   ("recording.nbrdifficultygb", "16"); ("recording.minnbrdifficultygb", "0");
   ("align.memorycompressionblock", "64")]%string.

Fixpoint default_in (l : list (string * string)) (name : str) : str :=
  match l with
  | [] => []
  | (k, v) :: r => if same_str (bytes k) name then bytes v else default_in r name
  end.

(** The value of a property after a history given newest first. *)
Fixpoint value_of (h : list prop_op) (name : str) : str :=
  match h with
  | [] => []
  | PSet k v :: r => if same_str k name then v else value_of r name
  | PInit m :: _ => match massoc m name with Some v => v | None => default_in defaults name end
  | PGet _ :: r => value_of r name
  end.

Definition do_prop (p : props) (o : prop_op) : props :=
  match o with
  | PSet k v => set_property p k v
  | PInit m => set_properties m
  | PGet k => snd (get_property p k)
  end.

(** The store before the program touched it (the static members) and after a history. *)
Definition fresh_props : props := {| p_map := []; p_dirty := true |}.
Definition run_props (h : list prop_op) : props := fold_left do_prop h fresh_props.

(** Histories of the properties and of one speech set that reads them, after its creation. *)
Inductive set_op := SGet (name : str) | SOrigin (is_ref : bool) | SCase | SFrag | SOpt.
Definition do_set (w : props * sset) (o : set_op) : props * sset :=
  match o with
  | SGet k => (snd (get_property (fst w) k), snd w)
  | SOrigin b => (fst w, set_origin (snd w) b)
  | SCase => snd (perform_case (fst w) (snd w))
  | SFrag => snd (fragments_correct (fst w) (snd w))
  | SOpt => snd (use_optionally (fst w) (snd w))
  end.

(** * Aligned tokens *)

Inductive ta_op :=
| TAdd (key : str) (tok : option nat)
| TToken (key : str)
| TResult (key : str)
| TSet (key : str) (r : aresult).

(** The token first registered for a system, [None] if it was never registered. *)
Fixpoint first_token (h : list ta_op) (key : str) : option (option nat) :=
  match h with
  | [] => None
  | TAdd k t :: r => if same_str k key then Some t else first_token r key
  | _ :: r => first_token r key
  end.

(** The result last given to a system, history newest first. *)
Fixpoint last_result (h : list ta_op) (key : str) : aresult :=
  match h with
  | [] => RUnavailable
  | TSet k x :: r => if same_str k key then x else last_result r key
  | _ :: r => last_result r key
  end.

Definition do_ta (t : talign) (o : ta_op) : res talign :=
  match o with
  | TAdd k tok => Ok (snd (add_alignment_for t k tok))
  | TToken k => Ok (snd (get_token_for t k))
  | TResult k => Ok (snd (get_result_for t k))
  | TSet k r => set_result_for t k r
  end.
Fixpoint run_ta (t : talign) (h : list ta_op) : res talign :=
  match h with
  | [] => Ok t
  | o :: r => match do_ta t o with Ok t' => run_ta t' r | Exit => Exit | Undef => Undef | NoFuel => NoFuel end
  end.

(** A history never gives a result to a system without an aligned token. *)
Fixpoint results_after_tokens (seen : list str) (h : list ta_op) : Prop :=
  match h with
  | [] => True
  | TAdd k _ :: r => results_after_tokens (k :: seen) r
  | TSet k _ :: r => In k seen /\ results_after_tokens seen r
  | _ :: r => results_after_tokens seen r
  end.

(** Registrations in an aligned segment: reference token (or none), system, aligned token. *)
Definition as_op : Type := (option nat * str * option nat)%type.

(** The reference tokens of the rows, in order of first registration; every registration
    without a reference token has its own row. *)
Fixpoint row_refs (seen : list nat) (h : list as_op) : list (option nat) :=
  match h with
  | [] => []
  | (None, _, _) :: r => None :: row_refs seen r
  | (Some x, _, _) :: r =>
    if in_dec Nat.eq_dec x seen then row_refs seen r else Some x :: row_refs (x :: seen) r
  end.

Fixpoint first_for (h : list as_op) (ref : nat) (key : str) : option (option nat) :=
  match h with
  | [] => None
  | (Some x, k, t) :: r => if Nat.eqb x ref && same_str k key then Some t else first_for r ref key
  | _ :: r => first_for r ref key
  end.

(** The inserted tokens (no reference token), in order. *)
Fixpoint inserted (h : list as_op) : list (str * option nat) :=
  match h with
  | [] => []
  | (None, k, t) :: r => (k, t) :: inserted r
  | _ :: r => inserted r
  end.

Fixpoint run_as (own : nat -> bool) (a : aseg) (h : list as_op) : res (list Z * aseg) :=
  match h with
  | [] => Ok ([], a)
  | (ref, k, t) :: r =>
    match add_token_alignment own a ref k t with
    | Ok (n, a') => match run_as own a' r with
                    | Ok (ns, a'') => Ok (n :: ns, a'')
                    | Exit => Exit | Undef => Undef | NoFuel => NoFuel
                    end
    | Exit => Exit | Undef => Undef | NoFuel => NoFuel
    end
  end.

(** The value returned by each registration: -1 for a reference token of another segment, 1
    for a new pair of reference token and system (always new without reference token), else 0;
    [before] is the history so far, oldest first. *)
Fixpoint codes (own : nat -> bool) (before h : list as_op) : list Z :=
  match h with
  | [] => []
  | (ref, k, t) :: r =>
    (match ref with
     | None => 1
     | Some x => if own x then match first_for before x k with None => 1 | Some _ => 0 end else -1
     end)%Z :: codes own (before ++ [(ref, k, t)]) r
  end.

Definition mine (own : nat -> bool) (h : list as_op) : list as_op :=
  filter (fun o => match fst (fst o) with Some x => own x | None => true end) h.

Definition op_key (o : ta_op) : str :=
  match o with TAdd k _ => k | TToken k => k | TResult k => k | TSet k _ => k end.
