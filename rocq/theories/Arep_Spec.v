(** What the SGML report of asclite says, independently of the code in Arep_Model.v. *)
From Coq Require Import String.
From Coq Require Import List ZArith NArith Bool Permutation Sorting.Sorted.
From Verif Require Import Text_Model Sgml_Model Sgml_Spec Arep_Model.
Import ListNotations.
Local Open Scope list_scope.

(** what std::sort promises: the same elements, in order *)
Definition sorts (S : sorter) : Prop :=
  forall A (key : A -> Z) l, Permutation l (S A key l) /\ StronglySorted (fun a b => (key a <= key b)%Z) (S A key l).

Definition all_segs (l : list speech) : list seg := flat_map sp_segs l.
Definition all_cells (l : list speech) : list cell := flat_map sg_cells (all_segs l).

(** ** An alignment that can be written *)
(** an id of a speaker that can stand among the auxiliary values *)
Definition plain_id (s : list N) : Prop :=
  Forall (fun b => (0 < b < 128)%N /\ b <> 34%N /\ b <> 44%N /\ b <> 58%N /\ b <> 10%N) s.
Definition tok_ok (e : enc) (o : opts) (t : tok) : Prop := field e (tk_text t) /\ (o_spkr o = true -> plain_id (tk_spkr t)).
Definition side_tok (e : enc) (o : opts) (t : option tok) : Prop := match t with Some t => tok_ok e o t | None => True end.
(** the cell has been scored: an insertion is of the hypothesis, a deletion of the reference, a substitution
    has both *)
Definition cell_ok (e : enc) (o : opts) (c : cell) : Prop :=
  side_tok e o (c_ref c) /\
  match c_eval c with
  | Some (r, h) =>
      side_tok e o h /\
      match r with
      | RC => True
      | RS | RP => c_ref c <> None /\ h <> None
      | RD => c_ref c <> None /\ h = None
      | RI => c_ref c = None /\ h <> None
      | _ => False
      end
  | None => False
  end.
Definition seg_ok (e : enc) (o : opts) (g : seg) : Prop :=
  field e (sg_id g) /\ field e (sg_label g) /\ field e (sg_source g) /\ field e (sg_chan g) /\ field e (sg_spkr g) /\
  Forall (cell_ok e o) (sg_cells g).
Definition speech_ok (e : enc) (o : opts) (p : speech) : Prop :=
  field e (sp_file p) /\ Forall (fun l => label_ok e (snd l)) (sp_labels p) /\ NoDup (sp_labels p) /\ Forall (seg_ok e o) (sp_segs p).
(** the file of a hypothesis token *)
Definition hyp_files_ok (e : enc) (l : list speech) : Prop :=
  forall c t, In c (all_cells l) -> hyp_of c = Some t -> field e (tk_file t).

(** ** What sclite reads *)
(** a word as it is written *)
Definition word_shown (o : opts) (t : tok) : list N :=
  let w := if o_case o then tk_text t else map (fun b => if ((65 <=? b) && (b <=? 90))%N then (b + 32)%N else b) (tk_text t) in
  let w := match tk_frag t with FNone => w | FBegin => w ++ [45%N] | FEnd => 45%N :: w end in
  if tk_opt t then 40%N :: w ++ [41%N] else w.
Definition timed (t : tok) : bool := (0 <=? tk_t1 t)%Z && (0 <=? tk_t2 t)%Z.
Definition sure (t : tok) : bool := match tk_conf t with Some _ => true | None => false end.
(** times and confidence are 0 if the token has none *)
Definition word_of (o : opts) (t : tok) : wrd :=
  {| wd_value := word_shown o t; wd_tag1 := None; wd_tag2 := None;
     wd_t1 := if timed t then tk_t1 t else 0%Z; wd_t2 := if timed t then tk_t2 t else 0%Z;
     wd_conf := match tk_conf t with Some c => c | None => 0%Z end; wd_weight := (-1000000)%Z |}.
(** the empty word: an optional word that the other side does not have *)
Definition no_word : wrd :=
  {| wd_value := []; wd_tag1 := None; wd_tag2 := None; wd_t1 := 0; wd_t2 := 0; wd_conf := 0; wd_weight := (-1000000)%Z |}.
Definition ev_of (r : result) : ev := match r with RC => EC | RS => ES | RP => ES | RD => ED | RI => EI | _ => EU end.
Definition side_of (o : opts) (r : result) (t : option tok) : option wrd :=
  match t, r with Some t, _ => Some (word_of o t) | None, RC => Some no_word | None, _ => None end.
Definition entry_of (o : opts) (c : cell) : entry :=
  match c_eval c with
  | Some (r, h) => {| en_ev := ev_of r; en_a := side_of o r (c_ref c); en_b := side_of o r h |}
  | None => {| en_ev := EU; en_a := None; en_b := None |}
  end.
Definition some_tok (f : tok -> bool) (t : option tok) : bool := match t with Some t => f t | None => false end.
(** a path says it has the times (confidences) of a side as soon as one token of the alignment has them *)
Definition flags_of (o : opts) (cs : list cell) (g : seg) : flags :=
  {| f_char := false; f_case := o_case o;
     f_hwt := existsb (fun c => some_tok timed (hyp_of c)) cs; f_rwt := existsb (fun c => some_tok timed (c_ref c)) cs;
     f_ht := false; f_rt := (0 <=? sg_t1 g)%Z && (0 <=? sg_t2 g)%Z;
     f_hconf := existsb (fun c => some_tok sure (hyp_of c)) cs; f_rconf := existsb (fun c => some_tok sure (c_ref c)) cs;
     f_hwgt := false; f_rwgt := false |}.
Definition path_of (o : opts) (cs : list cell) (g : seg) : rpath :=
  let r := (0 <=? sg_t1 g)%Z && (0 <=? sg_t2 g)%Z in
  {| pa_id := sg_id g; pa_labels := nonempty (sg_label g); pa_file := nonempty (sg_source g); pa_channel := nonempty (sg_chan g);
     pa_seq := sg_num g; pa_flags := flags_of o cs g; pa_rt1 := if r then sg_t1 g else 0%Z; pa_rt2 := if r then sg_t2 g else 0%Z;
     pa_ht1 := 0; pa_ht2 := 0; pa_set := map (entry_of o) (sg_cells g) |}.
Definition of_kind (k : lkind) (l : list (lkind * label)) : list label :=
  flat_map (fun x => match fst x, k with LLabel, LLabel | LCategory, LCategory => [snd x] | _, _ => [] end) l.
(** the report with its files, labels and speakers *)
Definition report_of (o : opts) (title date ref hyp : list N) (labels : list (lkind * label)) (cs : list cell)
    (gs : list (list N * list seg)) : report :=
  {| r_title := title; r_ref := nonempty ref; r_hyp := nonempty hyp; r_date := nonempty date;
     r_frag := o_frag o; r_opt := o_both o; r_wali := false; r_wfile := None;
     r_labels := of_kind LLabel labels; r_cats := of_kind LCategory labels;
     r_grps := map (fun g => (fst g, map (path_of o cs) (snd g))) gs |}.

(** ** Speakers *)
(** [n] is the least number of the segments *)
Definition least (l : list seg) (n : Z) : Prop := (exists g, In g l /\ sg_num g = n) /\ forall g, In g l -> (n <= sg_num g)%Z.
(** each segment once, under its speaker; the speakers in the order of their first segments *)
Definition grouped (l : list seg) (gs : list (list N * list seg)) : Prop :=
  NoDup (map fst gs) /\
  Permutation l (flat_map snd gs) /\
  (forall n ss, In (n, ss) gs -> ss <> [] /\ forall g, In g ss -> sg_spkr g = n) /\
  StronglySorted (fun a b => forall m n, least (snd a) m -> least (snd b) n -> (m <= n)%Z) gs.
Definition in_order (l : list seg) : Prop := StronglySorted (fun a b => (sg_num a <= sg_num b)%Z) l.
(** a speech of one speaker *)
Definition one_speaker (p : speech) : Prop := forall a b, In a (sp_segs p) -> In b (sp_segs p) -> sg_spkr a = sg_spkr b.

(** ** Names of files *)
(** the first segment whose first word has a hypothesis token: the file of the token, and the reference
    file of its speech *)
Definition first_hyp (g : seg) : option (list N) :=
  match sg_cells g with c :: _ => option_map tk_file (hyp_of c) | [] => None end.
Definition names (l : list speech) (ref hyp : list N) : Prop :=
  (exists a p b x g y, l = a ++ p :: b /\ sp_segs p = x ++ g :: y /\ first_hyp g = Some hyp /\ ref = sp_file p /\
     Forall (fun q => Forall (fun g => first_hyp g = None) (sp_segs q)) a /\ Forall (fun g => first_hyp g = None) x) \/
  (Forall (fun q => Forall (fun g => first_hyp g = None) (sp_segs q)) l /\ hyp = [] /\ exists a p, l = a ++ [p] /\ ref = sp_file p).
Definition is_base (path name : list N) : Prop := ~ In 47%N name /\ (path = name \/ exists d, path = d ++ 47%N :: name).
