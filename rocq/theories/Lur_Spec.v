(** Labels and subset scores, independently of the code in Lur_Model.v. *)
From Coq Require Import String Ascii.
From Coq Require Import List ZArith NArith Arith Bool.
From Verif Require Import Base Text_Model Text_Spec Case_Model Case_Spec Sgml_Model Sgml_Spec Lur_Model.
Import ListNotations.
Local Open Scope list_scope.

(** ** Labels *)
Definition LABEL : list N := B ";; LABEL ".
Definition CATEGORY : list N := B ";; CATEGORY ".
Definition no_quote (s : list N) : Prop := ~ In 34%N s.
(** the line declares a label: three texts in quotes after the keyword, whatever stands between them *)
Definition declares (kw line : list N) (x : label) : Prop :=
  exists p q r rest,
    line = kw ++ p ++ 34%N :: lb_id x ++ 34%N :: q ++ 34%N :: lb_title x ++ 34%N :: r ++ 34%N :: lb_desc x ++ 34%N :: rest
    /\ no_quote p /\ no_quote (lb_id x) /\ no_quote q /\ no_quote (lb_title x) /\ no_quote r /\ no_quote (lb_desc x).
(** what the lines declare, in order *)
Inductive declared (kw : list N) : list (list N) -> list label -> Prop :=
| declared_nil : declared kw [] []
| declared_yes l x ls xs : declares kw l x -> declared kw ls xs -> declared kw (l :: ls) (x :: xs)
| declared_no l ls xs : (forall x, ~ declares kw l x) -> declared kw ls xs -> declared kw (l :: ls) xs.
(** the elements of a list, each where it appears first *)
Inductive firsts : list label -> list label -> Prop :=
| firsts_nil : firsts [] []
| firsts_new xs out x : firsts xs out -> ~ In x xs -> firsts (xs ++ [x]) (out ++ [x])
| firsts_old xs out x : firsts xs out -> In x xs -> firsts (xs ++ [x]) out.

(** ** Subset scores *)
Definition chars := list (list N).
(** the same up to case *)
Definition same_case (e : enc) (p : profile) (a b : chars) : Prop :=
  exists ds, Forall2 (case_of e p true) a ds /\ Forall2 (case_of e p true) b ds.
(** [name f] is the first label with this identifier *)
Definition names (e : enc) (p : profile) (ids : list chars) (name : chars -> option nat) : Prop :=
  forall f, Forall (valid e) f ->
  match name f with
  | Some k => (exists a, nth_error ids k = Some a /\ same_case e p a f)
              /\ forall j a, j < k -> nth_error ids j = Some a -> ~ same_case e p a f
  | None => forall a, In a ids -> ~ same_case e p a f
  end.

(** an utterance: the fields of its label text, [None] without one, and the classes of its words *)
Record utt := { u_fields : option (list chars); u_evals : list eval }.
Record test := { k_ids : list chars; k_grps : list (list utt) }.
Definition good_field (e : enc) (f : chars) : Prop :=
  Forall (valid e) f /\ length (concat f) < 30 /\ forall b, In b (concat f) -> b <> 60%N /\ b <> 44%N /\ b <> 62%N.
Fixpoint join (fs : list chars) : list N :=
  match fs with [] => [] | [f] => concat f | f :: r => concat f ++ 44%N :: join r end.
Definition sentence_is (e : enc) (s : sentence) (u : utt) : Prop :=
  t_evals s = u_evals u
  /\ match t_labels s, u_fields u with
     | None, None => True
     | Some m, Some fs => holds m (60%N :: join fs ++ [62%N]) /\ fs <> [] /\ Forall (good_field e) fs
     | _, _ => False
     end.
Definition system_is (e : enc) (y : system) (t : test) : Prop :=
  Forall2 (text_in e) (y_ids y) (k_ids t) /\ Forall2 (Forall2 (sentence_is e)) (y_grps y) (k_grps t).

(** the utterance carries label [k] in field [q] *)
Definition carries (name : chars -> option nat) (q k : nat) (u : utt) : Prop :=
  exists fs f, u_fields u = Some fs /\ nth_error fs q = Some f /\ f <> [] /\ name f = Some k.
Definition uses (t : test) (u : utt) : Prop := exists g, In g (k_grps t) /\ In u g.
(** every label of every utterance is declared; a label is always in the same field *)
Definition known (ts : list (test * (chars -> option nat))) : Prop :=
  forall t name u fs f, In (t, name) ts -> uses t u -> u_fields u = Some fs -> In f fs -> f <> [] -> name f <> None.
Definition same_place (ts : list (test * (chars -> option nat))) : Prop :=
  forall t name u t' name' u' q q' k, In (t, name) ts -> uses t u -> In (t', name') ts -> uses t' u' ->
    carries name q k u -> carries name' q' k u' -> q = q'.

(** the reference words and the errors of the utterances with label [k] *)
Definition is_ref (x : eval) : bool := match x with Corr | Sub | Del => true | _ => false end.
Definition is_err (x : eval) : bool := match x with Ins | Sub | Del => true | _ => false end.
Definition has (name : chars -> option nat) (k : nat) (u : utt) : bool :=
  match u_fields u with
  | None => false
  | Some fs => existsb (fun f => match f with [] => false | _ => match name f with Some j => Nat.eqb j k | None => false end end) fs
  end.
Fixpoint total (w : eval -> bool) (name : chars -> option nat) (k : nat) (us : list utt) : nat :=
  match us with
  | [] => 0
  | u :: r => (if has name k u then length (filter w (u_evals u)) else 0) + total w name k r
  end.
Definition cell (t : lab) (i k g : nat) : option (nat * nat) :=
  match nth_error (lsc t) i with
  | Some a => match nth_error a k with Some b => nth_error b g | None => None end
  | None => None
  end.

(** the characters of a test *)
Definition test_chars (t : test) : chars :=
  concat (k_ids t) ++ concat (map (fun u => match u_fields u with Some fs => concat fs | None => [] end) (concat (k_grps t))).
(** the buffer of the case conversion is big enough to grow by half for the characters *)
Definition roomy (static : option mem) (all : chars) : Prop :=
  match static with Some b => 8 <= length b | None => False end
  \/ (match static with Some b => 5 <= length b | None => True end /\ Forall (fun c => length c <= 2) all).
