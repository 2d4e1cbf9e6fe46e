(** * SpecFlat: the market in which nothing happens.

    Every open, high, low and close is the same price, whatever is traded.  An
    average of prices is that price, a measure of change is nought, and there is
    nothing to buy or to sell on. *)
From Coq Require Import Reals List.
From Verif Require Import Base Num XReal Sides Klines SpecTa SpecInd2 IndBase.
Import ListNotations.
Set Implicit Arguments.

Definition flat_market (c : R) (kl : list (Candle (N := XR))) : Prop :=
  Forall (fun k => cOpen k = (Fin c : @F XR) /\ cHigh k = (Fin c : @F XR) /\ cLow k = (Fin c : @F XR) /\ cClose k = (Fin c : @F XR) /\ exists v, (0 <= v)%R /\ cVolume k = (Fin v : @F XR)) kl.
(** every candle traded something *)
Definition traded (kl : list (Candle (N := XR))) : Prop := Forall (fun k => exists v, (0 < v)%R /\ cVolume k = (Fin v : @F XR)) kl.

(** on every flat market of at least [need] candles, at whatever price, the column [f] is [x] of the price from row [k] on *)
Definition rests_at (I : Indicator (N := XR)) (p : Param I) (f : Val I -> @F XR) (x : R -> R) (need k : nat) : Prop :=
  forall c kl, (0 < c)%R -> flat_market c kl -> (need <= length kl)%nat ->
    exists r, rows_of I p kl = Ok r /\ length r = length kl /\ skipn k (column f r) = repeat (Fin (x c) : @F XR) (length kl - k).
(** on every flat market of at least [need] candles, at whatever price, every signal from the k-th on is Hold *)
Definition stays_out (I : Indicator (N := XR)) (p : Param I) (need k : nat) : Prop :=
  forall c kl, (0 < c)%R -> flat_market c kl -> (need <= length kl)%nat ->
    exists s, sides_of I p kl = Ok s /\ length s = length kl /\ skipn k s = repeat Hold (length kl - k).
