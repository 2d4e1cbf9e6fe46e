(** * SpecTa: what the vector functions are supposed to compute.

    Independent of the code's loops: windows, sums, means, least squares. *)
From Verif Require Import Base Num XReal.
Set Implicit Arguments.

(** [window l i p] (Base.v) is the list of the last [min (i+1) p] values of [l]
    ending at index [i], oldest first. *)

(** ** Order (any float arithmetic; comparisons are the float ones) *)
Section Ord.
Context {N : Num}.
(** [m] is (numerically) a largest / smallest member of [l]. *)
Definition max_of (m : F) (l : list F) : Prop :=
  (exists x, In x l /\ (m ==~ x) = true) /\ forall x, In x l -> (x <=~ m) = true.
Definition min_of (m : F) (l : list F) : Prop :=
  (exists x, In x l /\ (m ==~ x) = true) /\ forall x, In x l -> (m <=~ x) = true.
Definition no_nan (l : list F) : Prop := Forall (fun x => isNaN x = false) l.
(** the last [max 1 n] values (all of them when there are fewer) *)
Definition lastn (xs : list F) (n : Z) : list F := skipn (length xs - Z.to_nat (Z.max 1 n)) xs.
End Ord.

(** ** Exact arithmetic: series of real numbers *)
Definition fins (l : list R) : list (@F XR) := map Fin l.

Definition Rsum (l : list R) : R := fold_right Rplus 0%R l.
Definition mean (l : list R) : R := (Rsum l / INR (length l))%R.
Definition variance (l : list R) : R := mean (map (fun x => (x - mean l) * (x - mean l))%R l).
(** mean absolute deviation from the mean *)
Definition mad (l : list R) : R := mean (map (fun x => Rabs (x - mean l)) l).

(** Linearly weighted mean: weights 1, 2, ..., n, oldest first. *)
Fixpoint wsum_from (k : R) (l : list R) : R :=
  match l with [] => 0%R | x :: l' => (k * x + wsum_from (k + 1) l')%R end.
Definition wmean (l : list R) : R :=
  (wsum_from 1 l / Rsum (map (fun k => INR (S k)) (seq 0 (length l))))%R.

(** Squared error of the line y = b + m x on a list of points (x, y). *)
Definition sse (b m : R) (pts : list (R * R)) : R :=
  Rsum (map (fun q => (snd q - (b + m * fst q)) * (snd q - (b + m * fst q)))%R pts).
(** (b, m) is the least-squares line of the points: it minimises the squared
    error, and it is the only line that does. *)
Definition least_squares (b m : R) (pts : list (R * R)) : Prop :=
  (forall b' m', (sse b m pts <= sse b' m' pts)%R) /\
  (forall b' m', (sse b' m' pts <= sse b m pts)%R -> b' = b /\ m' = m).
(** The values of a series at abscissae 0, 1, 2, ... *)
Definition points (ys : list R) : list (R * R) := combine (map INR (seq 0 (length ys))) ys.

(** Exponential moving average with smoothing [a]. *)
Fixpoint ema (a : R) (xs : nat -> R) (i : nat) : R :=
  match i with
  | O => xs 0%nat
  | S i' => (a * xs (S i') + (1 - a) * ema a xs i')%R
  end.

(** True range of a bar given the previous close. *)
Definition true_range (h l pc : R) : R := Rmax (Rmax (h - l) (Rabs (pc - h))) (Rabs (pc - l)).

(** Largest / smallest value of a non-empty list. *)
Definition rmax (l : list R) : R := fold_right Rmax (hd 0%R l) l.
Definition rmin (l : list R) : R := fold_right Rmin (hd 0%R l) l.
