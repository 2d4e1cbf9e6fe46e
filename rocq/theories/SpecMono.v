(** * SpecMono: comparing two price series bar by bar. *)
From Coq Require Import List.
From Verif Require Import Base Num.
Import ListNotations.
Set Implicit Arguments.

(** the two series have the same length and the first is nowhere above the second *)
Definition nowhere_above {N : Num} (xs ys : list F) : Prop := Forall2 (fun x y => (y <~ x) = false) xs ys.

(** [f] never falls when prices rise: lifting some of the values, and lowering none, lowers no output *)
Definition rises_with {N : Num} (ok : list F -> Prop) (f : list F -> res (list F)) : Prop :=
  forall xs ys, ok xs -> ok ys -> nowhere_above xs ys ->
  exists rx ry, f xs = Ok rx /\ f ys = Ok ry /\ nowhere_above rx ry.
