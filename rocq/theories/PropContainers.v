(** * Properties C01-C03: container/bst and container/queue. *)
From Coq Require Import Permutation SpecFloat.
From Verif Require Import Base Num B64 XReal Order Containers SpecContainers BstProofs.
Set Implicit Arguments.

(** Binary64 literals for the examples. *)
Notation EX := (B64 ex_lib).
Definition vz (z : Z) : iface EX := VFloat (N:=EX) (b_ofZ z).
Definition vnan : iface EX := VFloat (N:=EX) S754_nan.

(** C01: over every history of Insert/Inserts/Remove/Min/Max calls on float64
    values other than NaN, no call panics and the answers are those of a multiset:
    Remove deletes one equal value and says so, or changes nothing and says false;
    Min/Max return a smallest/largest held value, nil when empty. *)
Theorem C01_bst_is_multiset_float64 (L : MathLib) (os : list (bop (iface (B64 L)))) :
  (forall o, In o os -> Forall float_not_nan (bop_vals o)) ->
  exists t rs bag, brun Compare Leaf os = Ok (t, rs) /\ bag_run iveq ivle [] os rs bag /\
                   Permutation bag (elems t).
Proof. exact (@bst_float_history (B64 L) (B64_ord L) os). Qed.
Print Assumptions C01_bst_is_multiset_float64.

Example C01_hyp :
  let os := [BInserts [vz 5; vz 3; vz 5; vz 9]; BMax; BRemove (vz 5); BMin; BRemove (vz 4); BMax] in
  (forall o, In o os -> Forall float_not_nan (bop_vals o)) /\
  rmap snd (brun Compare Leaf os) =
    Ok [ONone; OVal (Some (vz 9)); OBool true; OVal (Some (vz 3)); OBool false; OVal (Some (vz 9))].
Proof.
  split; [|reflexivity]. intros o Ho. cbn in Ho.
  repeat destruct Ho as [<-|Ho]; try contradiction; repeat constructor.
Qed.

(** The same for int64 values. *)
Theorem C01_bst_is_multiset_int64 (N : Num) (os : list (bop (iface N))) :
  (forall o, In o os -> Forall is_int (bop_vals o)) ->
  exists t rs bag, brun Compare Leaf os = Ok (t, rs) /\ bag_run iveq ivle [] os rs bag /\
                   Permutation bag (elems t).
Proof. exact (@bst_int_history N os). Qed.
Print Assumptions C01_bst_is_multiset_int64.

Example C01_int_hyp :
  let os := [BInsert (VInt (N:=EX) 2); BInsert (VInt (N:=EX) (-7)); BRemove (VInt (N:=EX) 2); BMax] in
  (forall o, In o os -> Forall is_int (bop_vals o)) /\
  rmap snd (brun Compare Leaf os) = Ok [ONone; ONone; OBool true; OVal (Some (VInt (N:=EX) (-7)))].
Proof.
  split; [|reflexivity]. intros o Ho. cbn in Ho.
  repeat destruct Ho as [<-|Ho]; try contradiction; repeat constructor.
Qed.

(** C02 is false of the code: with NaN among the values, Remove can delete a value
    it was not given and report success, and Min/Max can return NaN, or a value
    beaten by a held one, while ordinary numbers are held. *)
Theorem C02_nan_breaks_bst_refuted :
  (exists t, brun Compare Leaf [BInsert (vz 1); BRemove vnan] = Ok (t, [ONone; OBool true]) /\ t = Leaf) /\
  (exists t, brun Compare Leaf [BInsert (vz 5); BInsert vnan; BMin] =
               Ok (t, [ONone; ONone; OVal (Some vnan)])) /\
  (exists t, brun Compare Leaf [BInsert vnan; BInsert (vz 5); BInsert (vz 7); BRemove vnan; BMax;
                                BInsert vnan; BInsert (vz 9); BRemove vnan; BMin] =
               Ok (t, [ONone; ONone; ONone; OBool true; OVal (Some (vz 7)); ONone; ONone; OBool true;
                       OVal (Some vnan)])).
Proof.
  split; [|split].
  - exists Leaf; split; reflexivity.
  - eexists; reflexivity.
  - eexists; reflexivity.
Qed.
Print Assumptions C02_nan_breaks_bst_refuted.

(** What does hold with NaN: no call panics as long as all values are float64,
    and the number of held values changes only by Insert and by a successful
    Remove. *)
Theorem C02_bst_total_with_nan_partial (N : Num) (os : list (bop (iface N))) :
  (forall o, In o os -> Forall (fun v => exists x, v = VFloat x) (bop_vals o)) ->
  exists t rs, brun Compare Leaf os = Ok (t, rs) /\
    length (elems t) = (inserted os - removals rs)%nat /\ (removals rs <= inserted os)%nat.
Proof. exact (@bst_total_with_nan N os). Qed.
Print Assumptions C02_bst_total_with_nan_partial.

Example C02_hyp :
  let os := [BInserts [vz 5; vnan; vz 2]; BRemove vnan; BMin] in
  (forall o, In o os -> Forall (fun v => exists x, v = VFloat x) (bop_vals o)) /\
  exists t, brun Compare Leaf os = Ok (t, [ONone; OBool true; OVal (Some (vz 2))]).
Proof.
  split; [|eexists; reflexivity]. intros o Ho. cbn in Ho.
  repeat destruct Ho as [<-|Ho]; try contradiction; repeat constructor; eexists; reflexivity.
Qed.

(** C03: a queue is first-in first-out over every history ... *)
Theorem C03_queue_fifo A (os : list (qop A)) q rs :
  qrun qNew os = Ok (q, rs) -> enqueued os = dequeued rs ++ q.
Proof. exact (@queue_fifo A os q rs). Qed.
Print Assumptions C03_queue_fifo.

(** ... panics exactly when some prefix dequeues more than it enqueued ... *)
Theorem C03_queue_panics_iff_underflow A (os : list (qop A)) :
  qrun qNew os = Panic <-> ~ never_underflows os.
Proof. exact (@queue_panics_iff A os). Qed.
Print Assumptions C03_queue_panics_iff_underflow.

(** ... and every Empty call says whether everything enqueued so far has been
    dequeued. *)
Theorem C03_queue_empty A (os1 os2 : list (qop A)) q rs :
  qrun qNew (os1 ++ QEmpty :: os2) = Ok (q, rs) ->
  exists rs1 rs2, rs = rs1 ++ QBool (Nat.eqb (length (dequeued rs1)) (length (enqueued os1))) :: rs2 /\
    length rs1 = length os1.
Proof. exact (@queue_empty_reports A os1 os2 q rs). Qed.
Print Assumptions C03_queue_empty.

Example C03_hyp :
  qrun qNew [QEnq 1; QEnq 2; QEmpty; QDeq; QEnq 3; QDeq; QDeq; QEmpty] =
    Ok ([], [QUnit; QUnit; QBool false; QVal 1; QUnit; QVal 2; QVal 3; QBool true]) /\
  qrun qNew [QEnq 1; QDeq; QDeq; QEnq 2] = Panic.
Proof. split; reflexivity. Qed.
