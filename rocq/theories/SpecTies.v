(** * SpecTies: vocabulary of property C106, float64 signals against exact ones.

    The same chart is read twice: once as float64 candles, on which the library
    computes with rounding, and once as candles of the real numbers those
    float64 values stand for, on which the arithmetic is exact. *)
From Coq Require Import Reals ZArith List.
From Verif Require Import Base Num B64 XReal Klines IndBase SpecNum.
Import ListNotations.
Set Implicit Arguments.
Open Scope Z_scope.

(** the float64 [x] and the exact [a] are the same number, of magnitude at most [M] *)
Definition same_price (L : MathLib) (M : R) (x : @F (B64 L)) (a : @F XR) : Prop :=
  exists r, number (Float64 L) x r /\ a = Fin r /\ (Rabs r <= M)%R.
Definition same_candle (L : MathLib) (M : R) (k : Candle (N := B64 L)) (e : Candle (N := XR)) : Prop :=
  cTime k = cTime e /\ same_price M (cOpen k) (cOpen e) /\ same_price M (cHigh k) (cHigh e) /\ same_price M (cLow k) (cLow e) /\ same_price M (cClose k) (cClose e).
Definition same_chart (L : MathLib) (M : R) (kl : list (Candle (N := B64 L))) (ke : list (Candle (N := XR))) : Prop := Forall2 (same_candle M) kl ke.

(** [x] is a number, and it is within [e] of the exact number [a] *)
Definition near (L : MathLib) (e : R) (x : @F (B64 L)) (a : @F XR) : Prop :=
  exists r s, number (Float64 L) x r /\ a = Fin s /\ (Rabs (r - s) <= e)%R.
(** row by row, what [f] reads in the float64 rows is within [e] of what [g] reads in the exact rows *)
Definition rows_near (L : MathLib) (A B : Type) (f : A -> @F (B64 L)) (g : B -> @F XR) (e : R) (rf : list (row A)) (rx : list (row B)) : Prop :=
  length rf = length rx /\ forall i v w, nth_error rf i = Some v -> nth_error rx i = Some w -> near e (f (rVal v)) (g (rVal w)).
(** the exact number [g] reads in row [i] is more than [e] away from zero; row 0, where every average is the price itself, is exempt *)
Definition clear (B : Type) (g : B -> @F XR) (e : R) (rx : list (row B)) (i : nat) : Prop :=
  i = 0%nat \/ exists w r, nth_error rx i = Some w /\ g (rVal w) = Fin r /\ (e < Rabs r)%R.
(** the unit in which the errors are given, for prices up to [M]: four roundings of [M], plus the smallest positive float64 *)
Definition grain (M : R) : R := (M / 2 ^ 51 + / 2 ^ 1074)%R.
