(** * SpecMemory: how much history an indicator's value depends on.

    Two users follow the same market but started at different times, or one of
    them loaded a different past: their candle lists are [h1 ++ w] and [h2 ++ w].
    An indicator remembers [k] candles when, from the k-th common candle on, both
    read the same values. *)
From Coq Require Import Reals List.
From Verif Require Import Base Num XReal Klines SpecTa SpecBar IndBase SpecInd2.
Import ListNotations.
Set Implicit Arguments.

(** every price and volume is a real number *)
Definition real_candles (kl : list (Candle (N := XR))) : Prop := exists bs, Forall2 is_bar kl bs.

Definition remembers {B} (I : Indicator (N := XR)) (p : Param I) (f : Val I -> B) (k : nat) : Prop :=
  forall h1 h2 w, real_candles h1 -> real_candles h2 -> real_candles w -> (k <= length w)%nat ->
  exists rows1 rows2, rows_of I p (h1 ++ w) = Ok rows1 /\ rows_of I p (h2 ++ w) = Ok rows2 /\
    length rows1 = length (h1 ++ w) /\ length rows2 = length (h2 ++ w) /\
    skipn (length h1 + (k - 1)) (column f rows1) = skipn (length h2 + (k - 1)) (column f rows2).
