(** * SpecInd2: vocabulary for the formulas of the indicators.

    A series is a list with one value per candle; [F] is any float arithmetic. *)
From Verif Require Import Base Num Sides Klines IndBase.
Set Implicit Arguments.

Section Spec.
Context {N : Num}.

(** [ys] is the exponential moving average of [xs] with period [p]: it starts with the
    first value, and then y = (2 x + (p - 1) y') / (p + 1). *)
Definition ema_of (p : Z) (xs ys : list F) : Prop :=
  length ys = length xs /\ nth_error ys 0 = nth_error xs 0 /\
  forall i x y y', nth_error xs (S i) = Some x -> nth_error ys (S i) = Some y -> nth_error ys i = Some y' ->
    y = (ofZ 2 *~ x +~ ofZ (p - 1) *~ y') /~ ofZ (p + 1).
(** bar by bar *)
Definition pointwise {A B C} (f : A -> B -> C) (xs : list A) (ys : list B) : list C :=
  map (fun q => f (fst q) (snd q)) (combine xs ys).
(** a field of all rows *)
Definition column {A B} (f : A -> B) (rows : list (row A)) : list B := map (fun r => f (rVal r)) rows.
(** the ratio a / b, or 0 when it is not a finite number *)
Definition ratio (a b : F) : F := if isNaN (a /~ b) || isPInf (a /~ b) || isNInf (a /~ b) then ofZ 0 else a /~ b.
(** the previous value of a series: entry i-1, and [d] at the first bar *)
Definition previous {A} (d : A) (xs : list A) : list A := firstn (length xs) (d :: xs).
(** running totals *)
Fixpoint totals_from (s : F) (xs : list F) : list F :=
  match xs with [] => [] | x :: xs' => (s +~ x) :: totals_from (s +~ x) xs' end.
End Spec.
