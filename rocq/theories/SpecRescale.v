(** * SpecRescale: when two candles are the same bar. *)
From Verif Require Import Base Num Klines.
Set Implicit Arguments.

Section Spec.
Context {N : Num}.
(** two bars with the same time, prices, change and colour; highs and lows are
    equal as numbers (-0 and 0 are) *)
Definition same_bar (c c' : Candle) : Prop :=
  cTime c = cTime c' /\ cOpen c = cOpen c' /\ cClose c = cClose c' /\
  (cHigh c ==~ cHigh c') = true /\ (cLow c ==~ cLow c') = true /\ cChange c = cChange c' /\ cBull c = cBull c'.

End Spec.
