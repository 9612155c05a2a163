(** What the XML report of the generic alignment says, independently of the code in Gen_Model.v: a reader
    of XML, and what it must find. *)
From Coq Require Import String.
From Coq Require Import List ZArith NArith Bool Sorting.Sorted.
From Verif Require Import Base Sgml_Model Skip_Model Gen_Model.
Import ListNotations.
Local Open Scope list_scope.

(** ** XML without references: elements with attributes, and character data *)
Inductive xml := Elem (name : list N) (attrs : list (list N * list N)) (kids : list xml) | Text (s : list N).
Definition blank (b : N) : bool := ((b =? 32) || (b =? 9) || (b =? 10) || (b =? 13))%N.
Definition name_byte (b : N) : bool :=
  (((65 <=? b) && (b <=? 90)) || ((97 <=? b) && (b <=? 122)) || ((48 <=? b) && (b <=? 57)) || (b =? 45) || (b =? 95) || (b =? 46) || (b =? 58))%N.
(** markup and character data; blanks alone between two tags are nothing.  In a tag a > ends it unless it
    is in a value.  A < or & that is not markup is an error. *)
Inductive piece := Tag (body : list N) | Chars (s : list N).
Definition flush (acc : list N) : list piece := if forallb blank acc then [] else [Chars (rev acc)].
Inductive mode := InText | InTag (quoted : bool).
Fixpoint lex (m : mode) (acc s : list N) : option (list piece) :=
  match s with
  | [] => match m with InText => Some (flush acc) | InTag _ => None end
  | b :: r =>
      if (b =? 38)%N then None else
      match m with
      | InText => if (b =? 60)%N then option_map (app (flush acc)) (lex (InTag false) [] r) else lex InText (b :: acc) r
      | InTag q =>
          if (b =? 60)%N then None
          else if (b =? 34)%N then lex (InTag (negb q)) (b :: acc) r
          else if ((b =? 62)%N && negb q) then option_map (cons (Tag (rev acc))) (lex InText [] r)
          else lex (InTag q) (b :: acc) r
      end
  end.
(** the attributes name="value" of a tag, each after a blank; [true] if the tag ends with a slash *)
Inductive astate := Gap | Name (acc : list N) | Start (name : list N) | Value (name acc : list N) | After.
Fixpoint read_attrs (st : astate) (s : list N) : option (list (list N * list N) * bool) :=
  match s with
  | [] => match st with Gap | After => Some ([], false) | _ => None end
  | b :: r =>
      match st with
      | Gap =>
          if blank b then read_attrs Gap r
          else if (b =? 47)%N then match r with [] => Some ([], true) | _ => None end
          else if name_byte b then read_attrs (Name [b]) r else None
      | Name acc =>
          if (b =? 61)%N then read_attrs (Start (rev acc)) r else if name_byte b then read_attrs (Name (b :: acc)) r else None
      | Start n => if (b =? 34)%N then read_attrs (Value n []) r else None
      | Value n acc =>
          if (b =? 34)%N then option_map (fun x => ((n, rev acc) :: fst x, snd x)) (read_attrs After r)
          else read_attrs (Value n (b :: acc)) r
      | After =>
          if blank b then read_attrs Gap r
          else if (b =? 47)%N then match r with [] => Some ([], true) | _ => None end else None
      end
  end.
Fixpoint span_name (s : list N) : list N * list N :=
  match s with [] => ([], []) | b :: r => if name_byte b then let (n, t) := span_name r in (b :: n, t) else ([], s) end.
Inductive tag := Open (name : list N) (attrs : list (list N * list N)) | Single (name : list N) (attrs : list (list N * list N))
  | Close (name : list N) | Instruction.
Definition read_tag (body : list N) : option tag :=
  match body with
  | 63%N :: _ => Some Instruction
  | 47%N :: r => Some (Close r)
  | _ =>
      match span_name body with
      | ([], _) => None
      | (n, r) => match read_attrs After r with Some (a, false) => Some (Open n a) | Some (a, true) => Some (Single n a) | None => None end
      end
  end.
(** an element that is not closed yet: its name, attributes and content so far, the last first *)
Definition frame := (list N * list (list N * list N) * list xml)%type.
Definition add (x : xml) (f : frame) : frame := let '(n, a, k) := f in (n, a, x :: k).
Definition list_eqb (a b : list N) : bool := if list_eq_dec N.eq_dec a b then true else false.
Fixpoint build (top : frame) (below : list frame) (l : list piece) : option (list xml) :=
  match l with
  | [] => match below with [] => Some (rev (snd top)) | _ => None end
  | Chars s :: r => build (add (Text s) top) below r
  | Tag b :: r =>
      match read_tag b with
      | None => None
      | Some Instruction => build top below r
      | Some (Single n a) => build (add (Elem n a []) top) below r
      | Some (Open n a) => build (n, a, []) (top :: below) r
      | Some (Close n) =>
          match below with
          | [] => None
          | f :: fs => let '(m, a, k) := top in if list_eqb m n then build (add (Elem m a (rev k)) f) fs r else None
          end
      end
  end.
(** the element of a document *)
Definition document (s : list N) : option xml :=
  match lex InText [] s with
  | Some l => match build ([], [], []) [] l with Some [Elem n a k] => Some (Elem n a k) | _ => None end
  | None => None
  end.

(** ** The report as it is read *)
Record word := { w_bt : option Z; w_et : option Z; w_conf : option Z; w_spkr : option (list N); w_input : option (list N); w_text : list N }.
Record slot := { s_file : option (list N); s_chan : option (list N); s_words : list word }.
Definition get (n : string) (l : list (list N * list N)) : option (list N) :=
  match find (fun x => list_eqb (fst x) (B n)) l with Some (_, v) => Some v | None => None end.
(** a number with [k] decimals; [None] if the text is none *)
Definition number (k : nat) (v : option (list N)) : option (option Z) :=
  match v with None => Some None | Some v => match atof_in k v with Ok z => Some (Some z) | _ => None end end.
Definition word_of (x : xml) : option word :=
  match x with
  | Elem n a k =>
      if list_eqb n (B "word") then
        match number 3 (get "bt" a), number 3 (get "et" a), number 6 (get "conf" a),
              match k with [] => Some [] | [Text s] => Some s | _ => None end with
        | Some b, Some e, Some c, Some t =>
            Some {| w_bt := b; w_et := e; w_conf := c; w_spkr := get "speaker" a; w_input := get "input" a; w_text := t |}
        | _, _, _, _ => None
        end
      else None
  | Text _ => None
  end.
Fixpoint all_of {A B} (f : A -> option B) (l : list A) : option (list B) :=
  match l with [] => Some [] | x :: r => match f x, all_of f r with Some y, Some t => Some (y :: t) | _, _ => None end end.
Definition slot_of (x : xml) : option slot :=
  match x with
  | Elem n a k =>
      if list_eqb n (B "putative") then
        match all_of word_of k with Some l => Some {| s_file := get "file" a; s_chan := get "channel" a; s_words := l |} | None => None end
      else None
  | Text _ => None
  end.
Definition input_of (x : xml) : option (list N * list N) :=
  match x with
  | Elem n a [] => if list_eqb n (B "input") then match get "title" a, get "filename" a with Some t, Some f => Some (t, f) | _, _ => None end else None
  | _ => None
  end.
(** the inputs first *)
Fixpoint parts_of (l : list xml) : option (list (list N * list N) * list slot) :=
  match l with
  | [] => Some ([], [])
  | x :: r =>
      match input_of x with
      | Some s => match parts_of r with Some (i, p) => Some (s :: i, p) | None => None end
      | None => match all_of slot_of l with Some p => Some ([], p) | None => None end
      end
  end.
Definition read_report (s : list N) : option (list (list N * list N) * list slot) :=
  match document s with Some (Elem n _ k) => if list_eqb n (B "rover") then parts_of k else None | _ => None end.

(** ** What it must say *)
(** texts that stand for themselves in a value and between tags *)
Definition value_ok (s : list N) : Prop := Forall (fun b => (32 <= b)%N /\ b <> 34%N /\ b <> 38%N /\ b <> 60%N) s.
Definition text_ok (s : list N) : Prop := Forall (fun b => (32 < b)%N /\ b <> 38%N /\ b <> 60%N) s.
Definition tok_ok (t : tok) : Prop :=
  text_ok (k_text t) /\ value_ok (k_spkr t) /\ value_ok (k_title t) /\ value_ok (k_file t) /\ value_ok (k_chan t).
Definition column_ok (c : column) : Prop := forall t, In (Some t) c -> tok_ok t.
Definition system_ok (s : list N * list N) : Prop := value_ok (fst s) /\ value_ok (snd s).

Definition some_time (t : Z) : option Z := if (0 <=? t)%Z then Some t else None.
Definition some_text (s : list N) : option (list N) := match s with [] => None | _ => Some s end.
(** a word with what is known of it *)
Definition said (t : tok) : word :=
  {| w_bt := some_time (k_t1 t); w_et := some_time (k_t2 t); w_conf := k_conf t; w_spkr := some_text (k_spkr t);
     w_input := Some (k_title t); w_text := k_text t |}.
Definition nothing : word := {| w_bt := None; w_et := None; w_conf := None; w_spkr := None; w_input := None; w_text := [] |}.
Definition word_for (t : option tok) : word := match t with Some t => said t | None => nothing end.
(** the place of the last word of the column, if there is one *)
Definition place (c : column) (file chan : option (list N)) : Prop :=
  (exists a t b, c = a ++ Some t :: b /\ Forall (fun x => x = None) b /\ file = some_text (k_file t) /\ chan = some_text (k_chan t)) \/
  (Forall (fun x => x = None) c /\ file = None /\ chan = None).
(** a column with at least as many words as there are systems, the rest blank *)
Definition slot_for (n : nat) (c : column) (s : slot) : Prop :=
  place c (s_file s) (s_chan s) /\ s_words s = map word_for c ++ repeat nothing (n - length c).

(** a group of hypotheses only *)
Definition no_refs (g : group) : Prop := refs g = [].
(** the words of the alignments of the groups that are aligned *)
Inductive aligned (c : config) (align : group -> bool -> list column) : list group -> list (list column) -> Prop :=
  | al_nil : aligned c align [] []
  | al_skip g r l w : decide c g = Ok (Skipped w) -> aligned c align r l -> aligned c align (g :: r) l
  | al_take g r l b : decide c g = Ok (Aligned b) -> aligned c align r l -> aligned c align (g :: r) (align g b :: l).

(** a file name, a title and what the file holds: a system without a title is named after its file *)
Definition system_name {A} (s : list N * list N * A) : list N := match snd (fst s) with [] => fst (fst s) | _ => snd (fst s) end.
Definition system_file {A} (s : list N * list N * A) : list N := fst (fst s).
(** the same options with another upper limit of overlapping speakers *)
Definition with_max (c : config) (m : Z) : config :=
  {| max_speakers := m; min_speakers := min_speakers c; only_group := only_group c; max_gb := max_gb c;
     difficulty_gb := difficulty_gb c; min_difficulty_gb := min_difficulty_gb c; compression := compression c; force_compression := force_compression c |}.
