(** What the report of sclite says, independently of the code in Sgml_Model.v. *)
From Coq Require Import List ZArith NArith Bool.
From Verif Require Import Text_Model Text_Spec Sgml_Model.
Import ListNotations.

(** a text of an encoding in which the bytes below 128 are characters of their own *)
Definition text (e : enc) (s : list N) : Prop := exists cs, chars_of e s cs /\ Forall high_multibyte cs.
(** a text that can stand between quotes on a line *)
Definition field (e : enc) (s : list N) : Prop := text e s /\ ~ In 34%N s /\ ~ In 10%N s.
Definition opt_field (e : enc) (s : option (list N)) : Prop := match s with Some s => field e s | None => True end.

(** how a word is written: a backslash before each semicolon, and the two tags, if there is one of
    them, after semicolons *)
Definition shown (s : list N) : list N := flat_map (fun b => if N.eqb b 59 then [92%N; b] else [b]) s.
Definition shown_tag (t : option (list N)) : list N := match t with Some t => shown t | None => [] end.
Definition shown_word (w : wrd) : list N :=
  shown (wd_value w) ++
  match wd_tag1 w, wd_tag2 w with
  | None, None => []
  | t1, t2 => [59%N] ++ shown_tag t1 ++ [59%N] ++ shown_tag t2
  end.
(** a word that can be written: texts, less than 1000 bytes as written *)
Definition word_ok (e : enc) (w : wrd) : Prop :=
  field e (wd_value w) /\ opt_field e (wd_tag1 w) /\ opt_field e (wd_tag2 w) /\ (N.of_nat (length (shown_word w)) < 1000)%N.
Definition side_ok (e : enc) (w : option wrd) : Prop := exists x, w = Some x /\ word_ok e x.
(** an insertion has a hypothesis word, a deletion a reference word, the others both *)
Definition entry_ok (e : enc) (x : entry) : Prop :=
  match en_ev x with
  | EI => side_ok e (en_b x)
  | ED => side_ok e (en_a x)
  | EU => False
  | _ => side_ok e (en_a x) /\ side_ok e (en_b x)
  end.
Definition path_ok (e : enc) (p : rpath) : Prop :=
  field e (pa_id p) /\ opt_field e (pa_labels p) /\ opt_field e (pa_file p) /\ opt_field e (pa_channel p) /\
  Forall (entry_ok e) (pa_set p).
Definition label_ok (e : enc) (l : label) : Prop :=
  field e (lb_id l) /\ field e (lb_title l) /\ field e (lb_desc l) /\
  (N.of_nat (length (lb_id l) + length (lb_title l) + length (lb_desc l)) < 9965)%N.
Definition named (e : enc) (s : option (list N)) : Prop := exists x, s = Some x /\ field e x /\ x <> [].
Definition report_ok (e : enc) (r : report) : Prop :=
  field e (r_title r) /\ named e (r_ref r) /\ named e (r_hyp r) /\ named e (r_date r) /\
  (r_wali r = true -> exists f, r_wfile r = Some f /\ field e f) /\
  Forall (label_ok e) (r_labels r) /\ NoDup (r_labels r) /\
  Forall (label_ok e) (r_cats r) /\ NoDup (r_cats r) /\
  NoDup (map fst (r_grps r)) /\
  Forall (fun g => field e (fst g) /\ Forall (path_ok e) (snd g)) (r_grps r).

(** What is read: the words as they were written; the times, confidences and weights that the path
    says it has, others are 0, 0 and -1. *)
Definition word_read (times conf weight : bool) (w : wrd) : wrd :=
  {| wd_value := shown_word w; wd_tag1 := None; wd_tag2 := None;
     wd_t1 := if times then wd_t1 w else 0%Z; wd_t2 := if times then wd_t2 w else 0%Z;
     wd_conf := if conf then wd_conf w else 0%Z; wd_weight := if weight then wd_weight w else (-1000000)%Z |}.
Definition entry_read (f : flags) (x : entry) : entry :=
  {| en_ev := en_ev x;
     en_a := match en_ev x with EI => None | _ => option_map (word_read (f_rwt f) (f_rconf f) (f_rwgt f)) (en_a x) end;
     en_b := match en_ev x with ED => None | _ => option_map (word_read (f_hwt f) (f_hconf f) (f_hwgt f)) (en_b x) end |}.
(** an empty text is none *)
Definition or_none (s : option (list N)) : option (list N) := match s with Some [] => None | s => s end.
Definition path_read (p : rpath) : rpath :=
  {| pa_id := pa_id p; pa_labels := or_none (pa_labels p); pa_file := or_none (pa_file p); pa_channel := or_none (pa_channel p);
     pa_seq := pa_seq p; pa_flags := pa_flags p;
     pa_rt1 := if f_rt (pa_flags p) then pa_rt1 p else 0%Z; pa_rt2 := if f_rt (pa_flags p) then pa_rt2 p else 0%Z;
     pa_ht1 := if f_ht (pa_flags p) then pa_ht1 p else 0%Z; pa_ht2 := if f_ht (pa_flags p) then pa_ht2 p else 0%Z;
     pa_set := map (entry_read (pa_flags p)) (pa_set p) |}.
Definition report_read (r : report) : report :=
  {| r_title := r_title r; r_ref := r_ref r; r_hyp := r_hyp r; r_date := r_date r;
     r_frag := r_frag r; r_opt := r_opt r; r_wali := r_wali r; r_wfile := if r_wali r then r_wfile r else None;
     r_labels := r_labels r; r_cats := r_cats r; r_grps := map (fun g => (fst g, map path_read (snd g))) (r_grps r) |}.

(** A report that loses nothing: no tags and no semicolons, no value that its flag does not announce. *)
Definition word_kept (times conf weight : bool) (w : wrd) : Prop :=
  ~ In 59%N (wd_value w) /\ wd_tag1 w = None /\ wd_tag2 w = None /\
  (times = false -> wd_t1 w = 0%Z /\ wd_t2 w = 0%Z) /\ (conf = false -> wd_conf w = 0%Z) /\
  (weight = false -> wd_weight w = (-1000000)%Z).
Definition side_kept (times conf weight : bool) (w : option wrd) : Prop :=
  match w with Some w => word_kept times conf weight w | None => True end.
Definition entry_kept (f : flags) (x : entry) : Prop :=
  (en_ev x = EI -> en_a x = None) /\ (en_ev x = ED -> en_b x = None) /\
  side_kept (f_rwt f) (f_rconf f) (f_rwgt f) (en_a x) /\ side_kept (f_hwt f) (f_hconf f) (f_hwgt f) (en_b x).
Definition path_kept (p : rpath) : Prop :=
  pa_labels p <> Some [] /\ pa_file p <> Some [] /\ pa_channel p <> Some [] /\
  (f_rt (pa_flags p) = false -> pa_rt1 p = 0%Z /\ pa_rt2 p = 0%Z) /\
  (f_ht (pa_flags p) = false -> pa_ht1 p = 0%Z /\ pa_ht2 p = 0%Z) /\
  Forall (entry_kept (pa_flags p)) (pa_set p).
Definition report_kept (r : report) : Prop :=
  (r_wali r = false -> r_wfile r = None) /\ Forall (fun g => Forall path_kept (snd g)) (r_grps r).
