(** Segmentations of sequences of words by a lexicon. *)
From Coq Require Import List NArith ZArith Arith Bool Sorted.
From Verif Require Import Base Net_Model Text_Model Text_Spec Case_Model Case_Spec Word_Model Anet_Model Anet_Spec Cnet_Spec.
Import ListNotations.

(** ** The lexicon: the first field of each line of a file *)
Definition blank_char (c : list N) : Prop := c = [32%N] \/ c = [9%N] \/ c = [10%N].
Definition first_field (e : enc) (line t : list N) : Prop :=
  exists ws cs rest, chars_of e line (ws ++ cs ++ rest) /\ Forall blank_char ws /\ Forall (fun c => ~ blank_char c) cs
    /\ match rest with [] => True | c :: _ => blank_char c end /\ t = concat cs.
(** The order of TEXT_strcmp, a total order (C40). *)
Definition in_order (e : enc) (s t : list N) : Prop := exists z, strcmp e (s ++ [0%N]) (t ++ [0%N]) = Ok z /\ (z <= 0)%Z.
Definition sorted_lexicon (e : enc) (lex : list (list N)) : Prop := Forall (well_formed e) lex /\ Sorted (in_order e) lex.
(** [k] is the number of characters of the longest entry, at least 1. *)
Definition longest_entry (e : enc) (lex : list (list N)) (k : nat) : Prop :=
  1 <= k /\ (forall t cs, In t lex -> chars_of e t cs -> length cs <= k)
  /\ (k = 1 \/ exists t cs, In t lex /\ chars_of e t cs /\ length cs = k).

(** ** Words in one *)
(** The texts in a row, without the null words "@". *)
Definition joined_text (g : list word) : list N :=
  match filter (fun w => negb (is_null_word w)) g with [] => [64%N] | l => concat (map text_of l) end.
Definition joined (g : list word) : word :=
  let o := forallb w_opt_del g in
  let b := hd 0%Z (map w_t1 g) in
  let f := last (map w_t2 g) 0%Z in
  {| w_value := if o then 40%N :: joined_text g ++ [41%N] else joined_text g;
     w_intern := if o then Some (joined_text g) else None;
     w_opt_del := o; w_frag := forallb w_frag g;
     w_t1 := b; w_t2 := f; w_dur := (f - b)%Z; w_weight := fold_right Z.add 0%Z (map w_weight g) |}.

(** [a] is [r] with words in a row made one, where [ok] allows it. *)
Inductive grouped (ok : list word -> Prop) : list word -> list word -> Prop :=
| gr_end : grouped ok [] []
| gr_one : forall w r a, grouped ok r a -> grouped ok (w :: r) (w :: a)
| gr_more : forall g r a, 2 <= length g -> ok g -> grouped ok r a -> grouped ok (g ++ r) (joined g :: a).
(** A segmentation: what is put together is in the lexicon. *)
Definition segmented (lex : list (list N)) : list word -> list word -> Prop := grouped (fun g => In (joined_text g) lex).
(** One that puts at most [k] words together. *)
Definition segmented_to (k : nat) (lex : list (list N)) : list word -> list word -> Prop :=
  grouped (fun g => In (joined_text g) lex /\ length g <= k).

(** The words it can take: well-formed, not empty; an optional word is "(text)" and the text is not "@". *)
Definition joinable (e : enc) (w : word) : Prop :=
  well_formed e (w_value w) /\ text_of w <> [] /\ well_formed e (text_of w)
  /\ (w_opt_del w = true -> w_intern w = Some (text_of w) /\ w_value w = 40%N :: text_of w ++ [41%N] /\ text_of w <> [64%N]).

(** The text of the characters [cs] if case matters, or else in lower case. *)
Definition in_case (e : enc) (p : profile) (case_sense : bool) (cs ds : list (list N)) : Prop :=
  if case_sense then ds = cs else Forall2 (case_of e p true) cs ds.
(** A reading of a text as words of the lexicon and characters. *)
Definition reads_segmented (e : enc) (p : profile) (no_ascii : bool) (share : Z -> nat -> Z) (lex : list (list N)) (cs : list (list N)) (r : list word) : Prop :=
  exists r0, reads_chars e p no_ascii false share cs r0 /\ segmented lex r0 r.
