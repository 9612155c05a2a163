(** Model of asclite's token links: linking, unlinking, replacement of a token inside a
    segment, removal of a segment, flattening of a segment into a list. *)
From Coq Require Import List ZArith Arith Bool.
From Verif Require Import Base Graph_Model.
Import ListNotations.
Local Open Scope res_scope.

(** Tokens are numbered (addresses in the program).  [nxt]/[prc] are the vectors [next] and
    [prec] of token.h:101-103. *)
Record links := { nxt : nat -> list nat; prc : nat -> list nat }.

Definition upd {A} (f : nat -> A) (k : nat) (v : A) : nat -> A :=
  fun x => if Nat.eqb x k then v else f x.

(** token.h:51 [AddNextToken], token.h:53 [AddPrecToken]. *)
Definition add_next (h : links) (a b : nat) : links :=
  {| nxt := upd (nxt h) a (nxt h a ++ [b]); prc := prc h |}.
Definition add_prec (h : links) (b a : nat) : links :=
  {| nxt := nxt h; prc := upd (prc h) b (prc h b ++ [a]) |}.

(** token.cpp:141-145 [LinkTokens]: this = [a], next = [b]. *)
Definition link_tokens (h : links) (a b : nat) : links := add_next (add_prec h b a) a b.

(** The search-then-erase loops of token.cpp:149-162: the first occurrence is removed, [None]
    when there is none. *)
Fixpoint erase (x : nat) (l : list nat) : option (list nat) :=
  match l with
  | [] => None
  | y :: r => if Nat.eqb y x then Some r
              else match erase x r with Some r' => Some (y :: r') | None => None end
  end.

(** token.cpp:147-163 [UnlinkNextToken] and 165-181 [UnlinkPrevToken]. *)
Definition unlink_next (h : links) (a b : nat) : res links :=
  match erase b (nxt h a) with
  | Some l => Ok {| nxt := upd (nxt h) a l; prc := prc h |}
  | None => Exit
  end.
Definition unlink_prev (h : links) (b a : nat) : res links :=
  match erase a (prc h b) with
  | Some l => Ok {| nxt := nxt h; prc := upd (prc h) b l |}
  | None => Exit
  end.

(** token.cpp:183-202 [UnlinkTokens]: this = [a], next = [b]. *)
Definition unlink_tokens (h : links) (a b : nat) : res links :=
  match erase b (nxt h a), erase a (prc h b) with
  | Some l, Some l' => Ok {| nxt := upd (nxt h) a l; prc := upd (prc h) b l' |}
  | _, _ => Exit
  end.

(** A segment: the successors of its two dummy tokens [f_token] and [l_token]
    (segment.h:180-186), its times, and the time of each token ([-1] when unknown). *)
Record segment := { sg_first : list nat; sg_last : list nat; sg_begin : Z; sg_end : Z }.
Record times := { tk_begin : nat -> Z; tk_end : nat -> Z }.

(** segment.cpp:260-279. *)
Definition is_first_token (s : segment) (t : nat) : bool := mem t (sg_first s).
Definition is_last_token (s : segment) (t : nat) : bool := mem t (sg_last s).
(** segment.h:140. *)
Definition seg_empty (s : segment) : bool :=
  match sg_first s, sg_last s with _ :: _, _ :: _ => false | _, _ => true end.

(** segment.cpp:184-199 [AddFirstToken], 202-217 [AddLastToken]. *)
Definition add_first (tm : times) (s : segment) (t : nat) : res segment :=
  if (negb (tk_begin tm t =? -1)%Z && (tk_begin tm t <? sg_begin s)%Z)%bool then Exit
  else Ok {| sg_first := sg_first s ++ [t]; sg_last := sg_last s; sg_begin := sg_begin s; sg_end := sg_end s |}.
Definition add_last (tm : times) (s : segment) (t : nat) : res segment :=
  if (negb (tk_end tm t =? -1)%Z && (sg_end s <? tk_end tm t)%Z)%bool then Exit
  else Ok {| sg_first := sg_first s; sg_last := sg_last s ++ [t]; sg_begin := sg_begin s; sg_end := sg_end s |}.

Fixpoint add_all (f : segment -> nat -> res segment) (s : segment) (l : list nat) : res segment :=
  match l with [] => Ok s | t :: r => let* s' := f s t in add_all f s' r end.

(** segment.cpp:316-318 and 330-332: the nested linking loops. *)
Definition link_row (h : links) (froms : list nat) (t : nat) : links :=
  fold_left (fun h p => link_tokens h p t) froms h.
Definition link_col (h : links) (e : nat) (tos : list nat) : links :=
  fold_left (fun h n => link_tokens h e n) tos h.

(** segment.cpp:346-350: the unlinking loops; [fuel] bounds the iterations. *)
Fixpoint unlink_all_prec (fuel : nat) (h : links) (t : nat) : res links :=
  match prc h t with
  | [] => Ok h
  | p :: _ => match fuel with
              | 0 => NoFuel
              | S f => let* h' := unlink_tokens h p t in unlink_all_prec f h' t
              end
  end.
Fixpoint unlink_all_next (fuel : nat) (h : links) (t : nat) : res links :=
  match nxt h t with
  | [] => Ok h
  | n :: _ => match fuel with
              | 0 => NoFuel
              | S f => let* h' := unlink_tokens h t n in unlink_all_next f h' t
              end
  end.

(** segment.cpp:308-356 [ReplaceTokenWith]. *)
Definition replace_token (tm : times) (h : links) (s : segment) (t : nat)
    (starts ends : list nat) : res (links * segment) :=
  let prevs := prc h t in
  let h1 := fold_left (fun h st => link_row h prevs st) starts h in
  let* s1 := (if is_first_token s t then add_all (add_first tm) s starts else Ok s) in
  let nexts := nxt h1 t in
  let h2 := fold_left (fun h en => link_col h en nexts) ends h1 in
  let* s2 := (if is_last_token s1 t then add_all (add_last tm) s1 ends else Ok s1) in
  let* s3 := (if is_first_token s2 t
              then match erase t (sg_first s2) with
                   | Some l => Ok {| sg_first := l; sg_last := sg_last s2; sg_begin := sg_begin s2; sg_end := sg_end s2 |}
                   | None => Exit
                   end
              else Ok s2) in
  let* s4 := (if is_last_token s3 t
              then match erase t (sg_last s3) with
                   | Some l => Ok {| sg_first := sg_first s3; sg_last := l; sg_begin := sg_begin s3; sg_end := sg_end s3 |}
                   | None => Exit
                   end
              else Ok s3) in
  let* h3 := unlink_all_prec (length (prc h2 t)) h2 t in
  let* h4 := unlink_all_next (length (nxt h3 t)) h3 t in
  Ok (h4, s4).

(** stm_inputparser.cpp:313-323 (and linestyle_inputparser.cpp:385-395): [Attach], all last
    tokens of the one with all first tokens of the other. *)
Definition attach (h : links) (lasts firsts : list nat) : links :=
  fold_left (fun h l => fold_left (fun h f => add_prec (add_next h l f) f l) firsts h) lasts h.

(** speech.cpp:142-217 [RemoveSegment], the changes to the links: unlink the neighbours of
    the segment (first loop over first tokens, second over last tokens), then the re-attach
    loop of lines 183-196, whose inner iterator is not reset: only the first predecessor
    meets the successors. *)
Fixpoint unhook_prevs (h : links) (f : nat) (ps : list nat) (acc : list nat) : res (links * list nat) :=
  match ps with
  | [] => Ok (h, acc)
  | p :: r => let* h' := unlink_next h p f in unhook_prevs h' f r (acc ++ [p])
  end.
Fixpoint unhook_firsts (h : links) (fs : list nat) (acc : list nat) : res (links * list nat) :=
  match fs with
  | [] => Ok (h, acc)
  | f :: r => let* (h', acc') := unhook_prevs h f (prc h f) acc in unhook_firsts h' r acc'
  end.
Fixpoint unhook_nexts (h : links) (l : nat) (ns : list nat) (acc : list nat) : res (links * list nat) :=
  match ns with
  | [] => Ok (h, acc)
  | n :: r => let* h' := unlink_prev h n l in unhook_nexts h' l r (acc ++ [n])
  end.
Fixpoint unhook_lasts (h : links) (ls : list nat) (acc : list nat) : res (links * list nat) :=
  match ls with
  | [] => Ok (h, acc)
  | l :: r => let* (h', acc') := unhook_nexts h l (nxt h l) acc in unhook_lasts h' r acc'
  end.
Definition reattach (h : links) (prevs nexts : list nat) : links :=
  match prevs with
  | [] => h
  | p :: _ => fold_left (fun h n => add_prec (add_next h p n) n p) nexts h
  end.
Definition remove_segment (h : links) (s : segment) : res links :=
  let* (h1, prevs) := unhook_firsts h (sg_first s) [] in
  let* (h2, nexts) := unhook_lasts h1 (sg_last s) [] in
  Ok (reattach h2 prevs nexts).

(** ** Flattening *)

(** segment.cpp:241-255, the recursive [ToTopologicalOrderedStruct]; [fuel] bounds the depth. *)
Fixpoint flat_visit (nx : nat -> list nat) (lasts : list nat) (fuel : nat)
    (start : nat) (done : list nat) : res (list nat) :=
  match fuel with
  | 0 => NoFuel
  | S f =>
      if mem start lasts then Ok done
      else
        (fix loop (l : list nat) (done : list nat) : res (list nat) :=
           match l with
           | [] => Ok done
           | t :: r => if mem t done then loop r done
                       else let* d := flat_visit nx lasts f t (done ++ [t]) in loop r d
           end) (nx start) done
  end.

(** segment.cpp:223-236, the entry point: each first token is pushed, visited or not. *)
Fixpoint flat_firsts (nx : nat -> list nat) (lasts : list nat) (fuel : nat)
    (firsts : list nat) (done : list nat) : res (list nat) :=
  match firsts with
  | [] => Ok done
  | t :: r => let* d := flat_visit nx lasts fuel t (done ++ [t]) in flat_firsts nx lasts fuel r d
  end.
Definition flatten (nx : nat -> list nat) (fuel : nat) (s : segment) : res (list nat) :=
  flat_firsts nx (sg_last s) fuel (sg_first s) [].

(** segment.cpp:358-384: [GetMinTokensTime] and [GetMaxTokensTime] over the flattened list. *)
Definition min_tokens_time (tm : times) (l : list nat) : Z :=
  fold_left (fun m t => if ((m =? -1) || (tk_begin tm t <? m))%Z%bool then tk_begin tm t else m) l (-1)%Z.
Definition max_tokens_time (tm : times) (l : list nat) : Z :=
  fold_left (fun m t => if ((m =? -1) || (m <? tk_end tm t))%Z%bool then tk_begin tm t else m) l (-1)%Z.

(** ** From segments to a dimension of the graph *)

(** segmentsgroup.cpp:181-220: the flattened tokens of all the segments of a speech. *)
Fixpoint flatten_all (nx : nat -> list nat) (fuel : nat) (segs : list segment) : res (list nat) :=
  match segs with
  | [] => Ok []
  | s :: r => let* l := flatten nx fuel s in let* l' := flatten_all nx fuel r in Ok (l ++ l')
  end.

(** graph.cpp:107-108: the first segment that is not empty, else the last segment. *)
Fixpoint first_nonempty (segs : list segment) : option segment :=
  match segs with
  | [] => None
  | [s] => Some s
  | s :: r => if seg_empty s then first_nonempty r else Some s
  end.
(** graph.cpp:113-116: the same from the end. *)
Definition last_nonempty (segs : list segment) : option segment := first_nonempty (rev segs).

(** graph.cpp:71-123: a dimension.  [push_front] reverses the order of discovery.  The
    segments are looked up once per token, hence not at all for a speech without segments. *)
Definition build_dimension (nx : nat -> list nat) (fuel : nat) (segs : list segment) : res dimension :=
  let* toks := flatten_all nx fuel segs in
  match first_nonempty segs, last_nonempty segs with
  | Some sf, Some sl =>
      Ok {| d_toks := toks;
            d_first := rev (filter (is_first_token sf) toks);
            d_last := rev (filter (is_last_token sl) toks) |}
  | _, _ => match toks with [] => Ok {| d_toks := []; d_first := []; d_last := [] |} | _ => Undef end
  end.

(** segmentsgroup.cpp:146-175 [GetDifficultyNumber] (unbounded instead of 64 bits). *)
Fixpoint difficulty (sizes : list nat) : nat :=
  match sizes with [] => 1 | n :: r => (n + 1) * difficulty r end.
