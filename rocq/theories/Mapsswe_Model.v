(** The matched pairs sentence segment word error test: segmentation of two alignment paths and the
    statistic over the segments, /repo/src/sclite/mtchprs.c and statdist.c. *)
From Coq Require Import List Arith ZArith NArith QArith Bool.
From Verif Require Import Base NetDp_Model Word_Model Order_Model Path_Model Binom_Model SysTest_Model Scores_Model.
Import ListNotations.
Local Open Scope res_scope.
Local Open Scope nat_scope.

(** mtchprs.c:28-32 SEG.  The bounds are those the debugging output of mtchprs.c:583-587 prints; they are
    not stored by the program. *)
Record seg := {
  sg_beg1 : nat; sg_end1 : nat; (* positions beg .. end - 1 *)
  sg_beg2 : nat; sg_end2 : nat;
  sg_ref : nat; sg_err1 : nat; sg_err2 : nat
}.

(** mtchprs.c:619-630 [seg_count]; positions [from] to [to - 1] *)
Fixpoint seg_count (snt : list wstep) (k from err ref : nat) : res (nat * nat) :=
  match k with
  | O => Ok (err, ref)
  | S k' =>
      let* s := get snt from in
      seg_count snt k' (from + 1)
        (match snd s with PCorr => err | _ => err + 1 end)
        (match snd s with PIns => ref | _ => ref + 1 end)
  end.
(** mtchprs.c:568-614 [count_seg].  The list of segments is grown when full (573-574); it is a list here.
    The begin positions are ints, the end positions [to1], [to2] are one past the last. *)
Definition count_seg (snt1 snt2 : list wstep) (beg1 beg2 : Z) (to1 to2 : nat) (segs : list seg) : res (list seg) :=
  let beg1 := if (beg1 <? 0)%Z then 0%Z else beg1 in
  let beg2 := if (beg2 <? 0)%Z then 0%Z else beg2 in
  let b1 := Z.to_nat beg1 in
  let b2 := Z.to_nat beg2 in
  let* (err1, ref1) := seg_count snt1 (to1 - b1) b1 0 0 in
  let* (err2, ref2) := seg_count snt2 (to2 - b2) b2 0 0 in
  if (err1 =? 0) && (err2 =? 0) then Ok segs
  else Ok (segs ++ [{| sg_beg1 := b1; sg_end1 := to1; sg_beg2 := b2; sg_end2 := to2;
                       sg_ref := (ref1 + ref2) / 2; sg_err1 := err1; sg_err2 := err2 |}]).

Inductive mstate := MB | ME | MG.   (* 'b', 'e', 'g' *)

(** mtchprs.c:440-443: past the insertions *)
Fixpoint skip_ins (k : nat) (snt : list wstep) (i : nat) (st : mstate) : nat * mstate :=
  match k with
  | O => (i, st)
  | S k' => match nth_error snt i with
            | Some (_, _, PIns) => skip_ins k' snt (i + 1) ME
            | _ => (i, st)
            end
  end.

Definition ref_null (snt : list wstep) (i : nat) : bool :=
  match nth_error snt i with Some (None, _, _) => true | _ => false end.
Definition eval_at (snt : list wstep) (i : nat) : option eval := option_map snd (nth_error snt i).
Definition same_eval (a b : eval) : bool :=
  match a, b with PCorr, PCorr | PSub, PSub | PIns, PIns | PDel, PDel => true | _, _ => false end.
Definition is_corr (snt : list wstep) (i : nat) : bool :=
  match eval_at snt i with Some PCorr => true | _ => false end.

Section Compare.
(** [strcmp] is applied to the memory of the two WORD structures (mtchprs.c:452 and 470), not to their
    texts; whether it finds a difference is an arbitrary function of the two positions.  A null pointer
    there is undefined behaviour. *)
Variable differ : nat -> nat -> bool.
Variables snt1 snt2 : list wstep.
Variable min_good : nat.

Definition strcmp_words (i1 i2 : nat) : res bool :=
  if ref_null snt1 i1 || ref_null snt2 i2 then Undef else Ok (differ i1 i2).

(** mtchprs.c:447-453 *)
Definition out_of_sync (i1 i2 : nat) : res bool :=
  if xorb (ref_null snt1 i1) (ref_null snt2 i2) then Ok true
  else match eval_at snt1 i1, eval_at snt2 i2 with
       | Some e1, Some e2 =>
           let* d := strcmp_words i1 i2 in
           Ok (d && negb (same_eval e1 e2))
       | _, _ => Ok false
       end.
(** mtchprs.c:467-479 *)
Fixpoint sync_inner (k ind1 ind2 i1 i2 : nat) : res (nat * bool) :=
  match k with
  | O => NoFuel
  | S k' =>
      if (i2 <? length snt2) && (i2 <=? ind2 + 1 + (i1 - ind1)) then
        let* d := strcmp_words i1 i2 in
        if d : bool then Ok (i2, true) else sync_inner k' ind1 ind2 i1 (i2 + 1)
      else Ok (i2, false)
  end.
(** mtchprs.c:465-482 *)
Fixpoint sync_outer (k ind1 ind2 i1 i2 : nat) : res (nat * nat * bool) :=
  match k with
  | O => NoFuel
  | S k' =>
      if i1 <? length snt1 then
        let* (i2, synched) := sync_inner (S (length snt2)) ind1 ind2 i1 i2 in
        if synched : bool then Ok (i1, i2, true) else sync_outer k' ind1 ind2 (i1 + 1) i2
      else Ok (i1, i2, false)
  end.
Definition any_error (snt : list wstep) (from to : nat) : bool :=
  existsb (fun i => negb (is_corr snt i)) (seq from (S to - from)).
(** mtchprs.c:447-499 *)
Definition resync (ind1 ind2 : nat) (st : mstate) : res (nat * nat * mstate) :=
  let* o := out_of_sync ind1 ind2 in
  if o : bool then
    let* (i1, i2, synched) := sync_outer (S (length snt1)) ind1 ind2 ind1 ind2 in
    if synched : bool then
      Ok (i1, i2, if any_error snt1 ind1 i1 || any_error snt2 ind2 i2 then ME else st)
    else Ok (ind1, ind2, st)
  else Ok (ind1, ind2, st).

Record loop_state := { ls_ind1 : nat; ls_ind2 : nat; ls_eog1 : nat; ls_eog2 : nat; ls_st : mstate; ls_good : nat; ls_segs : list seg }.

Definition begin_of (eog : nat) : Z := (Z.of_nat eog - (Z.of_nat min_good - 1))%Z.
(** mtchprs.c:501-546: the transition *)
Definition transition (ind1 ind2 : nat) (s : loop_state) : res loop_state :=
  let both := is_corr snt1 ind1 && is_corr snt2 ind2 in
  let close good :=
    let* segs := count_seg snt1 snt2 (begin_of (ls_eog1 s)) (begin_of (ls_eog2 s)) (ind1 + 1) (ind2 + 1) (ls_segs s) in
    Ok {| ls_ind1 := ind1; ls_ind2 := ind2; ls_eog1 := ind1; ls_eog2 := ind2; ls_st := MB; ls_good := good; ls_segs := segs |} in
  let to st good := Ok {| ls_ind1 := ind1; ls_ind2 := ind2; ls_eog1 := ls_eog1 s; ls_eog2 := ls_eog2 s; ls_st := st; ls_good := good; ls_segs := ls_segs s |} in
  match ls_st s with
  | MB => if both then Ok {| ls_ind1 := ind1; ls_ind2 := ind2; ls_eog1 := ind1; ls_eog2 := ind2; ls_st := MB; ls_good := ls_good s; ls_segs := ls_segs s |}
          else to ME (ls_good s)
  | ME => if both then if 1 =? min_good then close 1 else to MG 1
          else to ME (ls_good s)
  | MG => if both then if ls_good s + 1 =? min_good then close (ls_good s + 1) else to MG (ls_good s + 1)
          else to ME (ls_good s)
  end.
(** mtchprs.c:436-551: one turn of the loop *)
Definition turn (s : loop_state) : res loop_state :=
  let (ind1, st) := skip_ins (length snt1) snt1 (ls_ind1 s) (ls_st s) in
  let (ind2, st) := skip_ins (length snt2) snt2 (ls_ind2 s) st in
  let* (ind1, ind2, st) := resync ind1 ind2 st in
  let* s := transition ind1 ind2 {| ls_ind1 := ind1; ls_ind2 := ind2; ls_eog1 := ls_eog1 s; ls_eog2 := ls_eog2 s; ls_st := st; ls_good := ls_good s; ls_segs := ls_segs s |} in
  Ok {| ls_ind1 := if ind1 <? length snt1 then ind1 + 1 else ind1;
        ls_ind2 := if ind2 <? length snt2 then ind2 + 1 else ind2;
        ls_eog1 := ls_eog1 s; ls_eog2 := ls_eog2 s; ls_st := ls_st s; ls_good := ls_good s; ls_segs := ls_segs s |}.
Fixpoint seg_loop (fuel : nat) (s : loop_state) : res loop_state :=
  match fuel with
  | O => NoFuel
  | S f => if ls_ind1 s <? length snt1 then let* s := turn s in seg_loop f s else Ok s
  end.
(** mtchprs.c:422-562 [test_comp_sents] *)
Definition test_comp_sents (segs : list seg) : res (list seg) :=
  let* s := seg_loop (S (length snt1)) {| ls_ind1 := 0; ls_ind2 := 0; ls_eog1 := 0; ls_eog2 := 0; ls_st := MB; ls_good := 0; ls_segs := segs |} in
  if match ls_st s with MB => ls_ind2 s <? length snt2 | _ => true end
  then count_seg snt1 snt2 (begin_of (ls_eog1 s)) (begin_of (ls_eog2 s)) (length snt1) (length snt2) (ls_segs s)
  else Ok (ls_segs s).
End Compare.

(** * the statistic *)
Definition qsum_z (l : list Z) : Q := fold_left (fun t z => (t + inject_Z z)%Q) l 0%Q.
(** statdist.c calc_mean_var_std_dev_Zstat: the mean, the sum of the squared deviations and whether it
    is not zero.  The median and the standard deviation are not used by the test.  For no values the
    median reads outside the array of pointers. *)
Definition deviations (l : list Z) (mean : Q) : Q := fold_left (fun t z => (t + (inject_Z z - mean) * (inject_Z z - mean))%Q) l 0%Q.
Definition mean_and_dev (l : list Z) : res (Q * Q) :=
  match l with
  | [] => Undef
  | _ => let mean := (qsum_z l / inject_Z (Z.of_nat (length l)))%Q in Ok (mean, deviations l mean)
  end.
(** statdist.c Z_pass and mtchprs.c:358-385 [analyze_Z_score] on the differences of the errors of the
    segments (mtchprs.c:257-283).  Z = mean / (sqrt(var) / sqrt(n)) with var = dev / (n - 1), or 0 if
    all deviations are 0; |Z| > z is decided by squares: mean^2 n > z^2 var. *)
Definition z95 : Q := fst (nth 4 z2tail (0, 0)%Q).
Definition mapsswe (segs : list seg) : res (Z * Q) :=
  let diff := map (fun s => (Z.of_nat (sg_err1 s) - Z.of_nat (sg_err2 s))%Z) segs in
  let* (mean, dev) := mean_and_dev diff in
  let n := inject_Z (Z.of_nat (length diff)) in
  if Qeq_bool dev 0
  then Ok (NO_DIFF, 1 - 2 * (normprob 0 1 - (1 # 2)))%Q
  else
    let var := (dev / (n - 1))%Q in
    let d2 := (mean * mean * n)%Q in
    let eval := if Qle_bool d2 (z95 * z95 * var)%Q then NO_DIFF else TEST_DIFF in
    Ok ((if Qle_bool 0 mean then eval else eval * -1)%Z, (1 - 2 * (normprob d2 var - (1 # 2)))%Q).

(** mtchprs.c:226-248: the segments of the sentences of both systems; the first sentence with the same
    identifier *)
Section Systems.
Variable differ : sentence -> sentence -> nat -> nat -> bool.
Variable min_good : nat.
Fixpoint mp_snt2 (x : sentence) (g2 : grp) (k i : nat) (segs : list seg) : res (list seg) :=
  match k with
  | O => Ok segs
  | S k' =>
      let* y := kept g2 i in
      if same (s_id x) (s_id y) then test_comp_sents (differ x y) (s_steps x) (s_steps y) min_good segs
      else mp_snt2 x g2 k' (i + 1) segs
  end.
Fixpoint mp_snt1 (g1 g2 : grp) (k i : nat) (segs : list seg) : res (list seg) :=
  match k with
  | O => Ok segs
  | S k' =>
      let* x := kept g1 i in
      let* segs := mp_snt2 x g2 (p_num (g_path g2)) 0 segs in
      mp_snt1 g1 g2 k' (i + 1) segs
  end.
Fixpoint mp_spk (sys1 sys2 : scores) (k i : nat) (segs : list seg) : res (list seg) :=
  match k with
  | O => Ok segs
  | S k' =>
      let* c := get (p_pset sys1) i in
      match c with
      | None => Undef
      | Some g1 =>
          let* f := find_grp sys2 (g_name g1) (p_num sys2) 0 in
          let* segs := match f with
                    | None => Ok segs
                    | Some j => let* c := get (p_pset sys2) j in
                                match c with None => Undef | Some g2 => mp_snt1 g1 g2 (p_num (g_path g1)) 0 segs end
                    end in
          mp_spk sys1 sys2 k' (i + 1) segs
      end
  end.
(** mtchprs.c:210-284 [do_mtch_pairs_on_sys] *)
Definition mtch_pairs_on_sys (sys1 sys2 : scores) : res (list seg * (Z * Q)) :=
  let* segs := mp_spk sys1 sys2 (p_num sys1) 0 [] in
  let* r := mapsswe segs in
  Ok (segs, r).
End Systems.
