(** A concrete segment group: two hypotheses and one reference with an alternation. *)
From Coq Require Import List ZArith Arith Bool String Lia.
From Verif Require Import Base Matrix_Model Graph_Model Graph_Spec.
Import ListNotations.
Open Scope string_scope.

(** Reference 10 -> (11 | 12) -> 13; hypothesis A is 0 -> 1; hypothesis B is 5.
    Hypothesis 0 says the same as 10 and 1 the same as 13; 5 matches nothing. *)
Definition ex_prec (t : nat) : list nat :=
  match t with 1 => [0] | 11 => [10] | 12 => [10] | 13 => [11; 12] | _ => [] end.
Definition ex_equiv (a b : nat) : bool :=
  match a, b with 0, 10 => true | 1, 13 => true | _, _ => false end.
Definition ex_env : tok_env :=
  {| te_prec := ex_prec;
     te_optional := fun t => Nat.eqb t 11;
     te_equiv := ex_equiv;
     te_edit := fun _ _ => 7%Z;
     te_start := fun t => if Nat.ltb t 10 then (Z.of_nat t * 10)%Z else (-1)%Z;
     te_end := fun t => if Nat.ltb t 10 then (Z.of_nat t * 10 + 5)%Z else (-1)%Z;
     te_segstart := fun t => (Z.of_nat (t - 10) * 30)%Z;
     te_segend := fun t => (Z.of_nat (t - 10) * 30 + 10)%Z;
     te_file := fun _ => "f"; te_chan := fun _ => "1";
     te_spk := fun t => if Nat.ltb t 10 then "sys" else "ref" |}.
Definition ex_cfg (prune : bool) : config :=
  {| cf_trans := 400; cf_ins := 300; cf_opt := 200; cf_nonspk := 100; cf_adapt := 50;
     cf_opt_ref := true; cf_opt_hyp := false; cf_prune := prune; cf_prune_thr := 0;
     cf_word := prune; cf_word_thr := 0; cf_spk := true; cf_adaptive := true;
     cf_wordalign := true; cf_maxdur := 100; cf_getref := fun _ _ _ => "ref" |}.
Definition ex_dims : list dimension :=
  [ {| d_toks := [0; 1]; d_first := [0]; d_last := [1] |};
    {| d_toks := [5]; d_first := [5]; d_last := [5] |};
    {| d_toks := [10; 11; 12; 13]; d_first := [10]; d_last := [13] |} ].
Definition ex_graph (prune : bool) : graph :=
  {| g_env := ex_env; g_cfg := ex_cfg prune; g_dims := ex_dims; g_ref := 2 |}.

Ltac conc :=
  repeat match goal with
  | H : _ \/ _ |- _ => destruct H
  | H : False |- _ => destruct H
  | H : _ /\ _ |- _ => destruct H
  end; subst; simpl in *.

Lemma ex_wf : forall b, wf_graph (ex_graph b).
Proof.
  intros b. split; [|split; [|split; [|split]]].
  - intros d Hd. simpl in Hd. unfold wf_dim.
    destruct Hd as [<-|[<-|[<-|[]]]]; simpl.
    + repeat split; try (intros; conc; simpl in *; intuition (try lia; try discriminate); fail).
    + repeat split; try (intros; conc; simpl in *; intuition (try lia; try discriminate); fail).
    + repeat split; try (intros; conc; simpl in *; intuition (try lia; try discriminate); fail).
  - exists (fun t => t). intros d t p Hd Ht Hp Hin. simpl in *.
    destruct Hd as [<-|[<-|[<-|[]]]]; simpl in *; conc; intuition (subst; simpl; lia).
  - unfold nonneg_costs. simpl. repeat split; intros; lia.
  - intros _ d1 d2 t1 t2 _ _ _ _. split; reflexivity.
  - simpl. lia.
Qed.
