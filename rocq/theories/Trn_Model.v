(** Model of the scoring of transcripts by utterance ids: /repo/src/sclite/align.c.

    Files are bytes without NUL, texts are ASCII (case conversion is tolower, the order of
    TEXT_strcmp is the order of the bytes, C40).  What is aligned is seen: the texts of each
    utterance with the id and the speaker; the alignment itself is C25, C26.  Labels and categories
    in comments are not modelled. *)
From Coq Require Import List NArith ZArith Arith Bool.
From Verif Require Import Base Chan_Model Read_Model.
Import ListNotations.
Local Open Scope res_scope.

(** align.c:110-120, 155-166, 563-572: the loop over a file; each line is used only if the end of
    the file has not been met with it.  The inner loop is that of stm.c:34-42 (the same tests). *)
Fixpoint read_utts (fuel : nat) (f : FILE) : res (list str) :=
  match fuel with
  | O => NoFuel
  | S n =>
    if feof f then Ok []
    else
      let* (buf, f') := read_stm_line f in
      if feof f' then Ok []
      else let* l := read_utts n f' in Ok (buf :: l)
  end.
Definition lines_of (bytes : str) : res (list str) := read_utts (S (S (length bytes))) {| rest := bytes; feof := false |}.

(** strrchr *)
Fixpoint rchr (c : N) (l : str) : option nat :=
  match l with
  | [] => None
  | x :: r => match rchr c r with
              | Some i => Some (S i)
              | None => if (x =? c)%N then Some O else None
              end
  end.
(** align.c:22-47 [remove_id]: the text and the id.  With the parentheses in the wrong order the
    terminator is written R - L + 1 bytes after the begin of the block of the id, which is before
    it unless the two are adjacent. *)
Definition remove_id (utt : str) : res (str * str) :=
  match rchr 41 utt, rchr 40 utt with
  | None, None => Ok (utt, [])
  | Some r, Some l =>
      if (Nat.ltb (r + 1) l) then Undef
      else Ok (firstn l utt, firstn (r + 1 - l) (skipn l utt))
  | _, _ => Exit
  end.

(** sctk.h:183 *)
Inductive id_type := WSJ | RM | ATIS | SWB | SPUID | SP.
(** strchr *)
Fixpoint chr (c : N) (l : str) : option nat :=
  match l with
  | [] => None
  | x :: r => if (x =? c)%N then Some O else option_map S (chr c r)
  end.
Definition LOAD_BUFF_LEN : nat := 1000.
(** A text is copied into the block of the speaker. *)
Definition to_speaker (s : str) : res str := if Nat.ltb (length s) LOAD_BUFF_LEN then Ok s else Undef.
(** align.c:49-84 [extract_speaker]; [prev] is what the block holds.  With an empty id the bytes
    after its terminator are read, which are left from before.  The caller ignores the error. *)
Definition extract_speaker (idt : id_type) (id prev : str) : res str :=
  match idt with
  | SP => to_speaker id
  | ATIS | WSJ => match id with [] => Undef | _ :: r => to_speaker (firstn 3 r) end
  | RM | SPUID | SWB =>
      match (match chr 45 id with Some p => Some p | None => chr 95 id end) with
      | None => Ok prev
      | Some p => to_speaker (firstn (p - 1) (skipn 1 id))
      end
  end.

(** text.c:758-805 TEXT_strcmp (C40) *)
Fixpoint scmp (a b : str) : comparison :=
  match a, b with
  | [], [] => Eq
  | [], _ => Lt
  | _, [] => Gt
  | x :: a', y :: b' => match N.compare x y with Eq => scmp a' b' | c => c end
  end.
(** qsort: a sorted permutation (equal texts are the same) *)
Fixpoint insert (x : str) (l : list str) : list str :=
  match l with
  | [] => [x]
  | y :: r => match scmp x y with Gt => y :: insert x r | _ => x :: l end
  end.
Definition qsort (l : list str) : list str := fold_right insert [] l.
(** bsearch (stdlib-bsearch.h of the C library) *)
Fixpoint bsearch_loop (fuel : nat) (key : str) (l : list str) (lo hi : nat) : res (option nat) :=
  match fuel with
  | O => NoFuel
  | S f =>
    if Nat.ltb lo hi then
      let mid := Nat.div2 (lo + hi) in
      match nth_error l mid with
      | None => Undef
      | Some x => match scmp key x with
                  | Lt => bsearch_loop f key l lo mid
                  | Gt => bsearch_loop f key l (mid + 1) hi
                  | Eq => Ok (Some mid)
                  end
      end
    else Ok None
  end.
Definition bsearch (key : str) (l : list str) : res (option nat) := bsearch_loop (S (length l)) key l 0 (length l).

Definition fold_case (case_sense : bool) (l : str) : str := if case_sense then l else map lower l.
Fixpoint update {A} (l : list A) (i : nat) (x : A) : list A :=
  match l, i with
  | [], _ => []
  | _ :: r, O => x :: r
  | y :: r, S i' => y :: update r i' x
  end.
Fixpoint mapM {A B} (g : A -> res B) (l : list A) : res (list B) :=
  match l with
  | [] => Ok []
  | x :: r => let* y := g x in let* ys := mapM g r in Ok (y :: ys)
  end.
(** strncmp(p, q, strlen(p)) == 0 *)
Fixpoint prefix_of (p q : str) : bool :=
  match p, q with
  | [], _ => true
  | x :: p', y :: q' => (x =? y)%N && prefix_of p' q'
  | _, [] => false
  end.
(** align.c:155-190: the references, [set] is refset and [bad] failure. *)
Fixpoint store_refs (case_sense : bool) (ids : list str) (lines : list str) (set : list (option str)) (num : nat) (bad : bool)
    : res (list (option str) * nat * bool) :=
  match lines with
  | [] => Ok (set, num, bad)
  | l :: r =>
      let* (text, id) := remove_id (fold_case case_sense l) in
      let* ind := bsearch id ids in
      match ind with
      | None => store_refs case_sense ids r set num bad
      | Some i =>
          match nth_error set i with
          | None => Undef
          | Some (Some t) => store_refs case_sense ids r set num (bad || negb (prefix_of text t))
          | Some None => store_refs case_sense ids r (update set i (Some text)) (S num) bad
          end
      end
  end.
(** align.c:92-218 [load_refs]: the ids in order and their texts. *)
Definition load_refs (case_sense : bool) (hyp ref : str) : res (list str * list (option str)) :=
  let* hl := lines_of hyp in
  let* hs := mapM (fun l => remove_id (fold_case case_sense l)) hl in
  let ids := qsort (map snd hs) in
  let* rl := lines_of ref in
  let* (t, bad) := store_refs case_sense ids rl (map (fun _ => None) ids) 0 false in
  let (set, num) := t in
  if bad || negb (Nat.eqb num (length ids)) then Exit else Ok (ids, set).

(** What is aligned. *)
Record utt := { u_spk : str; u_id : str; u_ref : str; u_hyp : str }.
(** align.c:563-617: the loop over the hypothesis; [prev] is what the block of the speaker holds. *)
Fixpoint align_utts (case_sense : bool) (idt : id_type) (ids : list str) (set : list (option str)) (lines : list str) (prev : str) : res (list utt) :=
  match lines with
  | [] => Ok []
  | l :: r =>
      let* (text, id) := remove_id l in
      let id := fold_case case_sense id in
      let* spk := extract_speaker idt id prev in
      let* ind := bsearch id ids in
      match ind with
      | None => Exit
      | Some i =>
          match nth_error set i with
          | Some (Some t) =>
              let* us := align_utts case_sense idt ids set r spk in
              Ok ({| u_spk := spk; u_id := id; u_ref := fold_case case_sense t; u_hyp := fold_case case_sense text |} :: us)
          | _ => Undef
          end
      end
  end.
(** align.c:508-627 [align_trans_mode_dp] *)
Definition align_trans_mode (case_sense : bool) (idt : id_type) (ref hyp : str) : res (list utt) :=
  let* (ids, set) := load_refs case_sense hyp ref in
  let* lines := lines_of hyp in
  align_utts case_sense idt ids set lines [].
