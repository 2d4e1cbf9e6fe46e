(** * SpecShift: the same chart drawn higher or lower.

    Back-adjusting a contract, or quoting a spread against another reference, adds
    one constant to every price and changes no volume.  An average should move by
    that constant; a difference, a ratio of ranges or a signal should not move. *)
From Coq Require Import Reals List.
From Verif Require Import Base Num XReal Klines IndBase SpecInd2 SpecMemory.
Import ListNotations.
Set Implicit Arguments.

(** open, high, low and close moved by [c]; everything else kept *)
Definition lifted (c : R) (k : Candle (N := XR)) : Candle (N := XR) :=
  mkCandle (N := XR) (cAmount k) (cCount k) (cOpen k +~ (Fin c : @F XR)) (cClose k +~ (Fin c : @F XR)) (cLow k +~ (Fin c : @F XR)) (cHigh k +~ (Fin c : @F XR))
    (cVolume k) (cChange k) (cBull k) (cTime k).

(** from the k-th candle on, the column [f] of the moved chart is that of the original chart moved by the same constant *)
Definition follows_level (I : Indicator (N := XR)) (p : Param I) (f : Val I -> @F XR) (k : nat) : Prop :=
  forall (c : R) kl, real_candles kl -> (k <= length kl)%nat -> exists r r', rows_of I p kl = Ok r /\ rows_of I p (map (lifted c) kl) = Ok r' /\
    length r = length kl /\ skipn (k - 1) (column f r') = map (fun x => x +~ (Fin c : @F XR)) (skipn (k - 1) (column f r)).
(** the column [f] of the moved chart is that of the original chart *)
Definition ignores_level {B} (I : Indicator (N := XR)) (p : Param I) (f : Val I -> B) : Prop :=
  forall (c : R) kl, real_candles kl -> exists r r', rows_of I p kl = Ok r /\ rows_of I p (map (lifted c) kl) = Ok r' /\
    length r = length kl /\ column f r' = column f r.
(** the two charts give the same signals *)
Definition same_signals (I : Indicator (N := XR)) (p : Param I) : Prop :=
  forall (c : R) kl, real_candles kl -> exists s, sides_of I p kl = Ok s /\ sides_of I p (map (lifted c) kl) = Ok s.
