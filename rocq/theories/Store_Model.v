(** Model of asclite's string-keyed stores: the speaker map, the configuration properties and
    the settings each speech set caches from them, the table of aligned tokens. *)
From Coq Require Import List ZArith NArith Arith Bool String Ascii.
From Verif Require Import Base.
Import ListNotations.
Local Open Scope res_scope.

(** Byte strings (std::string). [bytes] turns a literal of the source into one. *)
Definition str := list N.
Definition bytes (s : string) : str := map N_of_ascii (list_ascii_of_string s).

Fixpoint str_eqb (a b : str) : bool :=
  match a, b with
  | [], [] => true
  | x :: a', y :: b' => N.eqb x y && str_eqb a' b'
  | _, _ => false
  end.

(** std::map<string, V> as a list of pairs; the order of the keys is not used by the functions
    modelled here. [massoc] is find, [mput] is the assignment m[k] = v. *)
Definition smap (V : Type) := list (str * V).

Fixpoint massoc {V} (m : smap V) (k : str) : option V :=
  match m with
  | [] => None
  | (k', v) :: r => if str_eqb k' k then Some v else massoc r k
  end.

Fixpoint mput {V} (m : smap V) (k : str) (v : V) : smap V :=
  match m with
  | [] => [(k, v)]
  | (k', v') :: r => if str_eqb k' k then (k', v) :: r else (k', v') :: mput r k v
  end.

(** The value of the expression m[k]: a missing key is inserted with the default value. *)
Definition mindex {V} (d : V) (m : smap V) (k : str) : V * smap V :=
  match massoc m k with Some v => (v, m) | None => (d, mput m k d) end.

(** * Speaker map *)

(** The key built at speakermatch.cpp:118-123 and 139-144; 124 is '|'. *)
Definition spk_key (source channel sys : str) : str :=
  source ++ 124%N :: channel ++ 124%N :: sys.

(** speakermatch.cpp:116-134 [SetSysRef]; the messages are not modelled. *)
Definition set_sys_ref (m : smap str) (source channel sys ref : str) : smap str :=
  match massoc m (spk_key source channel sys) with
  | None => mput m (spk_key source channel sys) ref
  | Some _ => m
  end.

(** speakermatch.cpp:137-156 [GetRef]. *)
Definition get_ref (m : smap str) (source channel sys : str) : str :=
  match massoc m (spk_key source channel sys) with Some v => v | None => [] end.

(** The do-while of speakermatch.cpp:78-92: the fields between commas (44). *)
Fixpoint fields (acc line : str) : list str :=
  match line with
  | [] => [rev acc]
  | c :: r => if N.eqb c 44 then rev acc :: fields [] r else fields (c :: acc) r
  end.

(** One line of speakermatch.cpp:57-110. A line is a comment when its first '#' (35) is at
    position 0. The seventh field is stored behind the array tokens[6] (line 87): undefined.
    With fewer fields the remaining tokens are empty; only a message is written. *)
Definition load_line (m : smap str) (line : str) : res (smap str) :=
  match line with
  | 35%N :: _ => Ok m
  | _ =>
    if str_eqb line (bytes "File,Channel,RefSpeaker,SysSpeaker,isMapped,timeOverlap") then Ok m
    else
      let tokens := fields [] line in
      if (6 <? List.length tokens)%nat then Undef
      else
        if str_eqb (nth 4 tokens []) (bytes "mapped")
        then Ok (set_sys_ref m (nth 0 tokens []) (nth 1 tokens []) (nth 3 tokens []) (nth 2 tokens []))
        else Ok m
  end.

(** speakermatch.cpp:43-113 [LoadFile], given the lines of the file. *)
Fixpoint load_lines (m : smap str) (lines : list str) : res (smap str) :=
  match lines with
  | [] => Ok m
  | l :: r => let* m' := load_line m l in load_lines m' r
  end.

(** * Properties *)

(** properties.cpp:28-29: the static members. *)
Record props := { p_map : smap str; p_dirty : bool }.

(** properties.cpp:34-38 [SetProperty]. *)
Definition set_property (p : props) (name value : str) : props :=
  {| p_map := mput (p_map p) name value; p_dirty := true |}.

(** One "if(properties.find(k) == properties.end()) properties[k] = v" of 48-121. *)
Definition add_default (m : smap str) (k v : string) : smap str :=
  match massoc m (bytes k) with None => mput m (bytes k) (bytes v) | Some _ => m end.

(** properties.cpp:43-122 [SetProperties]. *)
Definition set_properties (initial : smap str) : props :=
  let m := initial in
  let m := add_default m "align.case_sensitive" "false" in
  let m := add_default m "align.fragment_are_correct" "false" in
  let m := add_default m "align.optionally" "none" in
  let m := add_default m "align.timepruneoptimization" "false" in
  let m := add_default m "align.timepruneoptimizationthreshold" "0" in
  let m := add_default m "align.timewordoptimization" "false" in
  let m := add_default m "align.timewordoptimizationthreshold" "0" in
  let m := add_default m "align.speakeroptimization" "false" in
  let m := add_default m "align.adaptivecost" "false" in
  let m := add_default m "recording.maxspeakeroverlaping" "4" in
  let m := add_default m "recording.maxoverlapinghypothesis" "1" in
  let m := add_default m "recording.maxnbofgb" "2" in
  let m := add_default m "recording.nbrdifficultygb" "16" in
  let m := add_default m "recording.minnbrdifficultygb" "0" in
  let m := add_default m "align.memorycompressionblock" "64" in
  {| p_map := m; p_dirty := true |}.

(** properties.cpp:137-142 [Initialize]. *)
Definition initialize : props := set_properties [].

(** properties.cpp:127-131 [GetProperty]. *)
Definition get_property (p : props) (name : str) : str * props :=
  let (v, m) := mindex ([] : str) (p_map p) name in (v, {| p_map := m; p_dirty := false |}).

(** properties.h [IsDirty]. *)
Definition is_dirty (p : props) : bool := p_dirty p.

(** Settings a speech set keeps (speechset.h) and its origin flag. *)
Record sset := { ss_ref : bool; ss_case : bool; ss_frag : bool; ss_opt : bool }.

(** speechset.cpp:39-52 [UpdatePropertiesIfNeeded]. *)
Definition update_if_needed (p : props) (s : sset) (force : bool) : props * sset :=
  if force || is_dirty p then
    let (c, p) := get_property p (bytes "align.case_sensitive") in
    let (f, p) := get_property p (bytes "align.fragment_are_correct") in
    let (o, p) := get_property p (bytes "align.optionally") in
    let both := str_eqb o (bytes "both") in
    let opt := if both then true
               else if ss_ref s then str_eqb o (bytes "ref") else str_eqb o (bytes "hyp") in
    (p, {| ss_ref := ss_ref s; ss_case := str_eqb c (bytes "true");
           ss_frag := str_eqb f (bytes "true"); ss_opt := opt |})
  else (p, s).

(** speechset.cpp:28-37, the constructor; the members read from the properties are
    overwritten by the forced update, so their initial value does not matter. *)
Definition new_sset (p : props) : props * sset :=
  update_if_needed p {| ss_ref := false; ss_case := false; ss_frag := false; ss_opt := false |} true.

(** speechset.cpp:105-130 [SetOrigin]: only the flag read by IsRef is kept here. *)
Definition set_origin (s : sset) (is_ref : bool) : sset :=
  {| ss_ref := is_ref; ss_case := ss_case s; ss_frag := ss_frag s; ss_opt := ss_opt s |}.

(** speechset.cpp:54-70 [PerformCaseSensitiveAlignment], [AreFragmentsCorrect],
    [UseOptionallyDeletable]. *)
Definition perform_case (p : props) (s : sset) : bool * (props * sset) :=
  let (p, s) := update_if_needed p s false in (ss_case s, (p, s)).
Definition fragments_correct (p : props) (s : sset) : bool * (props * sset) :=
  let (p, s) := update_if_needed p s false in (ss_frag s, (p, s)).
Definition use_optionally (p : props) (s : sset) : bool * (props * sset) :=
  let (p, s) := update_if_needed p s false in (ss_opt s, (p, s)).

(** * Table of aligned tokens *)

(** tokenalignment.h: results, by their short name. *)
Inductive aresult := RCorrect | RSubst | RSpkSub | RDel | RIns | RReference | RInvalid | RUnavailable.

(** AlignmentEvaluation: the aligned token ([None] is NULL) and the result. *)
Record evaluation := { ev_token : option nat; ev_result : aresult }.

(** The map of evaluations; [None] is a NULL pointer put there by operator[]. *)
Definition talign := smap (option evaluation).

(** tokenalignment.cpp:30 [REFERENCE_KEY] and 32-35, the constructor. *)
Definition reference_key : str := bytes "REFERENCE".
Definition new_talign (ref : option nat) : talign :=
  mput [] reference_key (Some {| ev_token := ref; ev_result := RReference |}).

(** tokenalignment.cpp:58-66 [AddAlignmentFor]. *)
Definition add_alignment_for (t : talign) (key : str) (tok : option nat) : nat * talign :=
  match mindex None t key with
  | (Some _, t') => (0, t')
  | (None, t') => (1, mput t' key (Some {| ev_token := tok; ev_result := RUnavailable |}))
  end.

(** tokenalignment.h [GetAlignmentFor], tokenalignment.cpp:68-78 [GetResultFor], [GetTokenFor]. *)
Definition get_result_for (t : talign) (key : str) : aresult * talign :=
  match mindex None t key with
  | (Some e, t') => (ev_result e, t')
  | (None, t') => (RInvalid, t')
  end.
Definition get_token_for (t : talign) (key : str) : option nat * talign :=
  match mindex None t key with
  | (Some e, t') => (ev_token e, t')
  | (None, t') => (None, t')
  end.

(** SetResult on the evaluation of a system (stt_scorer.cpp:61-150 does this through
    GetAlignmentFor); a NULL evaluation is dereferenced: undefined. *)
Definition set_result_for (t : talign) (key : str) (r : aresult) : res talign :=
  match mindex None t key with
  | (Some e, t') => Ok (mput t' key (Some {| ev_token := ev_token e; ev_result := r |}))
  | (None, _) => Undef
  end.

(** tokenalignment.cpp:80-83 [GetReferenceToken]. *)
Definition get_reference_token (t : talign) : res (option nat) :=
  match mindex None t reference_key with
  | (Some e, _) => Ok (ev_token e)
  | (None, _) => Undef
  end.

(** tokenalignment.cpp:85-101 [ToString] calls a method of every entry: undefined on a NULL one. *)
Fixpoint to_string_rows (t : talign) : res (list (str * evaluation)) :=
  match t with
  | [] => Ok []
  | (k, Some e) :: r => let* l := to_string_rows r in Ok ((k, e) :: l)
  | (_, None) :: _ => Undef
  end.

(** AlignedSegment: the token alignments in order and the map from reference tokens to them
    (positions in the list instead of pointers). *)
Record aseg := { as_rows : list talign; as_index : list (nat * nat) }.
Definition new_aseg : aseg := {| as_rows := []; as_index := [] |}.

Fixpoint iassoc (m : list (nat * nat)) (k : nat) : option nat :=
  match m with [] => None | (k', v) :: r => if Nat.eqb k' k then Some v else iassoc r k end.

Fixpoint update_at {A} (l : list A) (i : nat) (x : A) : list A :=
  match l, i with
  | [], _ => []
  | _ :: r, O => x :: r
  | y :: r, S i' => y :: update_at r i' x
  end.

(** alignedsegment.cpp:59-79 [GetTokenAlignmentFor] with create = true: the position of the
    token alignment. The NULL entries left by operator[] are the absent keys here. *)
Definition get_talign_for (a : aseg) (ref : option nat) : nat * aseg :=
  match (match ref with Some r => iassoc (as_index a) r | None => None end) with
  | Some i => (i, a)
  | None =>
    let i := List.length (as_rows a) in
    (i, {| as_rows := as_rows a ++ [new_talign ref];
           as_index := match ref with Some r => (r, i) :: as_index a | None => as_index a end |})
  end.

(** alignedsegment.cpp:81-89 [AddTokenAlignment]; [own r] tells whether the parent segment of
    token r is the segment of this object. *)
Definition add_token_alignment (own : nat -> bool) (a : aseg) (ref : option nat) (key : str)
  (hyp : option nat) : res (Z * aseg) :=
  if (match ref with Some r => negb (own r) | None => false end) then Ok ((-1)%Z, a)
  else
    let (i, a') := get_talign_for a ref in
    match nth_error (as_rows a') i with
    | Some t => let (n, t') := add_alignment_for t key hyp in
                Ok (Z.of_nat n, {| as_rows := update_at (as_rows a') i t'; as_index := as_index a' |})
    | None => Undef
    end.
