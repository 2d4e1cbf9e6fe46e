(** * SpecFinite: words for property C92. *)
From Coq Require Import Reals List ZArith.
From Verif Require Import Base Num XReal Klines SpecTa SpecBar.
Import ListNotations.
Set Implicit Arguments.
Open Scope Z_scope.

(** neither infinite nor NaN *)
Definition finite (x : xr) : Prop := exists r, x = Fin r.
(** a market: candles of real prices above 0 with low <= open, close <= high and a volume that is not negative *)
Definition market (kl : list (Candle (N := XR))) (bs : list bar) : Prop :=
  Forall2 is_bar kl bs /\ Forall well_formed bs /\ Forall (fun b => 0 < bL b)%R bs.
(** bar [j] never left the close of the bar before it *)
Definition still (bs : list bar) (j : nat) : Prop :=
  exists b' b, nth_error bs (j - 1) = Some b' /\ nth_error bs j = Some b /\ bH b = bC b' /\ bL b = bC b'.
(** every price of the window is the same *)
Definition one_price (w : list bar) : Prop := exists v, Forall (fun b => bH b = v /\ bL b = v) w.
Definition typical (b : bar) : R := ((bH b + bL b + bC b) / 3)%R.
