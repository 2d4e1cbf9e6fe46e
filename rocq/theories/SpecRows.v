(** * SpecRows: what callers expect of the rows they were given (property C105). *)
From Coq Require Import String.
From Verif Require Import Base Num Sides Klines IndBase IndTrend IndChannel IndVolume IndOsc IndAll RowMem.
Set Implicit Arguments.

Section Spec.
Context {N : Num}.
Variable I : Indicator (N := N).
(** any history of a program that uses objects of the type: calls and the caller's own statements *)
Definition reached (h : Heap I) : Prop := runs (fun _ => True) (start I) h.
(** what object [k] would answer to GetData, when it has rows *)
Definition reports (h : Heap I) (k : nat) (r : list (row (Val I))) : Prop :=
  exists d, nth_error (objs h) k = Some d /\ rsLen d <> 0%nat /\ rows_in (mem h) d = r.
(** the caller has the slice that GetData of object [k] returned *)
Definition given (h : Heap I) (k : nat) (s : RowSlice) : Prop :=
  nth_error (objs h) k = Some s /\ rsLen s <> 0%nat /\ In s (held h).
(** histories without a statement of the caller's own, and those in which the caller
    leaves alone the array [s] lies in *)
Definition only_calls : Heap I -> Heap I -> Prop := runs (fun _ => False).
Definition elsewhere (s : RowSlice) : Heap I -> Heap I -> Prop := runs (fun t => rsArr t <> rsArr s).
End Spec.
