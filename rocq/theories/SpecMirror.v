(** * SpecMirror: the chart turned upside down.

    Quoting the inverse side of a spread turns every price x into c - x: highs
    become lows, rises become falls.  What an indicator says about the rise of one
    chart it should say about the fall of the other, and its buy signals should
    become sell signals. *)
From Coq Require Import Reals List.
From Verif Require Import Base Num XReal Sides Klines SpecTa IndBase SpecInd2 SpecMemory.
Import ListNotations.
Set Implicit Arguments.

(** every price x becomes c - x, so that high and low change places, and a rising candle becomes a falling one *)
Definition mirrored (c : R) (k : Candle (N := XR)) : Candle (N := XR) :=
  mkCandle (N := XR) (cAmount k) (cCount k) ((Fin c : @F XR) -~ cOpen k) ((Fin c : @F XR) -~ cClose k) ((Fin c : @F XR) -~ cHigh k) ((Fin c : @F XR) -~ cLow k)
    (cVolume k) (cChange k) (negb (cBull k)) (cTime k).

(** from the k-th candle on, the column [g] of the mirrored chart is (a c) minus the column [f] of the original *)
Definition mirrors (I : Indicator (N := XR)) (p : Param I) (f g : Val I -> @F XR) (a : R -> R) (k : nat) : Prop :=
  forall (c : R) kl, real_candles kl -> (k <= length kl)%nat -> exists r r', rows_of I p kl = Ok r /\ rows_of I p (map (mirrored c) kl) = Ok r' /\
    length r = length kl /\ skipn (k - 1) (column g r') = map (fun x => (Fin (a c) : @F XR) -~ x) (skipn (k - 1) (column f r)).
(** the column [g] of the mirrored chart is the column [f] of the original *)
Definition trades_places {B} (I : Indicator (N := XR)) (p : Param I) (f g : Val I -> B) : Prop :=
  forall (c : R) kl, real_candles kl -> exists r r', rows_of I p kl = Ok r /\ rows_of I p (map (mirrored c) kl) = Ok r' /\
    length r = length kl /\ column g r' = column f r.
Definition opposite (s : Side) : Side := if Z.eqb s Buy then Sell else if Z.eqb s Sell then Buy else s.
(** from signal [n] on, the mirrored chart sells where the original buys and buys where it sells *)
Definition opposite_signals (I : Indicator (N := XR)) (p : Param I) (n : nat) : Prop :=
  forall (c : R) kl, real_candles kl -> (1 <= length kl)%nat -> exists s s', sides_of I p kl = Ok s /\ sides_of I p (map (mirrored c) kl) = Ok s' /\
    length s = length kl /\ skipn n s' = map opposite (skipn n s).
(** among the last [p] candles of every bar from [from] on, some high is at least [d] above some low *)
Definition moves_by (d : R) (p from : nat) (kl : list (Candle (N := XR))) : Prop :=
  forall i, (from <= i < length kl)%nat -> exists a b x y, In a (window kl i p) /\ In b (window kl i p) /\ cLow a = Fin x /\ cHigh b = Fin y /\ (x + d <= y)%R.
