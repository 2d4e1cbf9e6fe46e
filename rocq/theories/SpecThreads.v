(** * SpecThreads: goroutines with objects of their own, and GetData as a program. *)
From Verif Require Import Base Num B64 Sides Klines IndBase IndAll Threads.
Set Implicit Arguments.

Section Spec.
Variable A : Type.
Local Notation cmd := (cmd A).
Local Notation World := (World A).

(** [own k] is the goroutine that object [k] belongs to.  A goroutine keeps to its
    own when it names no object of another one and makes up no slices of arrays of
    another one. *)
Definition mine (t : nat) (s : Slice) : Prop := match s with Nil => True | Sl o _ _ => o = t end.
Fixpoint keeps (own : nat -> nat) (t : nat) (c : cmd) : Prop :=
  match c with
  | Load k f => own k = t /\ forall s, mine t s -> keeps own t (f s)
  | Store k s c => own k = t /\ mine t s /\ keeps own t c
  | Append s x f => mine t s /\ forall s', mine t s' -> keeps own t (f s')
  | Make z n f => forall s, mine t s -> keeps own t (f s)
  | Write s i x c => mine t s /\ keeps own t c
  | Read s i f => mine t s /\ forall x, keeps own t (f x)
  | Return s => mine t s
  end.
Definition apart (own : nat -> nat) (w : World) : Prop :=
  (forall t, keeps own t (wRun w t)) /\ forall k, mine (own k) (wObj w k).
(** what goroutine [t] sees *)
Definition same_view (own : nat -> nat) (t : nat) (w w' : World) : Prop :=
  wMem w t = wMem w' t /\ (forall k, own k = t -> wObj w k = wObj w' k) /\ wRun w t = wRun w' t.

End Spec.

Unset Strict Implicit.
Section Calls.
Context {N : Num}.
(** a row of an indicator of any type *)
Definition Row : Type := { I : Indicator & row (Val I) }.
Definition rows_of_type (I : Indicator) (r : list (row (Val I))) : list Row := map (fun x => existT (fun I => row (Val I)) I x) r.
(** GetData of the types that append, and of the types that allocate *)
Definition appending_GetData (I : Indicator) (k : nat) (r : list (row (Val I))) : cmd Row := get_data k (append_rows_of k (rows_of_type r)).
Definition making_GetData (I : Indicator) (zero : Row) (k : nat) (r : list (row (Val I))) : cmd Row := get_data k (make_rows_of zero k (rows_of_type r)).
(** [c] is GetData on object [k], an object of type [I] with parameters [p] and
    candles [kl], whose calculation makes the rows [r]. *)
Inductive calls_GetData (k : nat) (I : Indicator) (p : Param I) (kl : list Candle) (r : list (row (Val I))) : cmd Row -> Prop :=
  | by_append : In I append_style -> Calculation I p kl [] = Ok r -> calls_GetData k p kl r (appending_GetData k r)
  | by_make zero : In I make_style -> Calculation I p kl [] = Ok r -> calls_GetData k p kl r (making_GetData zero k r).
(** [c] is GetData on object [k], whatever its type *)
Definition some_GetData (k : nat) (c : cmd Row) : Prop := exists (I : Indicator) (p : Param I) kl r, calls_GetData k p kl r c.
End Calls.

