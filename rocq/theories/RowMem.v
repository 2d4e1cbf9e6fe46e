(** * RowMem: the rows of indicator objects in memory.  GetData returns the slice
    e.data itself, so the caller's slice and the object's share one array. *)
From Coq Require Import String.
From Verif Require Import Base Num Sides Klines IndBase IndTrend IndChannel IndVolume IndOsc IndAll.
Set Implicit Arguments.

Section Rows.
Context {N : Num}.
Variable I : Indicator (N := N).

(** The arrays of rows, each as long as its capacity.  A slice [s] is a prefix of one
    of them (no slice of the code or of the modelled callers starts elsewhere).  Array
    0 has no capacity: the nil slice. *)
Definition RowMem := list (list (row (Val I))).
Record RowSlice := mkRS { rsArr : nat; rsLen : nat }.
Definition array_in (m : RowMem) (s : RowSlice) : list (row (Val I)) := nth (rsArr s) m [].
Definition rows_in (m : RowMem) (s : RowSlice) : list (row (Val I)) := firstn (rsLen s) (array_in m s).
Definition nil_slice : RowSlice := mkRS 0 0.

(** Go's [s = append(s, x)]: in place when there is room, otherwise into a new array
    with as much [spare] room as the runtime likes *)
Inductive append1 (m : RowMem) (s : RowSlice) (x : row (Val I)) : RowMem -> RowSlice -> Prop :=
  | in_place : (rsLen s < length (array_in m s))%nat ->
      append1 m s x (upd m (rsArr s) (upd (array_in m s) (rsLen s) x)) (mkRS (rsArr s) (S (rsLen s)))
  | moved spare : (length (array_in m s) <= rsLen s)%nat ->
      append1 m s x (m ++ [rows_in m s ++ x :: spare]) (mkRS (length m) (S (rsLen s))).
Inductive append_all : RowMem -> RowSlice -> list (row (Val I)) -> RowMem -> RowSlice -> Prop :=
  | all_done m s : append_all m s [] m s
  | one_more m s x l m1 s1 m2 s2 : append1 m s x m1 s1 -> append_all m1 s1 l m2 s2 -> append_all m s (x :: l) m2 s2.

(** Calculation on an object whose data field is [d]: 26 types append row after row
    (trend/Ma.go:60, volume/Obv.go:62, ...), 19 put their rows into a new slice of
    that length (trend/Ema.go:47, channel/Boll.go:99, ...); trend/Rma.go:43-46 appends
    to a new slice (whose outgrown arrays, which nobody sees, are left out). *)
Definition calculates (m : RowMem) (d : RowSlice) (p : Param I) (kl : list Candle) (m' : RowMem) (d' : RowSlice) : Prop :=
  exists r, Calculation I p kl (rows_in m d) = Ok r /\
    (In I append_style /\ append_all m d (skipn (rsLen d) r) m' d' \/
     In I make_style /\ m' = m ++ [r] /\ d' = mkRS (length m) (length r) \/
     I = I_Rma /\ exists spare, m' = m ++ [r ++ spare] /\ d' = mkRS (length m) (length r)).

(** The memory, the data fields of all objects of the type, and the slices the
    caller holds. *)
Record Heap := mkHeap { mem : RowMem; objs : list RowSlice; held : list RowSlice }.
Definition start : Heap := mkHeap [[]] [] [].

(** One call of the library: New..., Calculation, GetData (which calculates when there
    are no rows yet: trend/Ma.go:40-46, ...), Clear (trend/ReversalSignals.go:42,
    trend/SmartMoneyConcepts.go:120, oscillator/VolumeOscillator.go:45).  AnalysisSide and
    GetValues call GetData and leave memory alone otherwise.  The candles may be
    others at every call. *)
Inductive lib_step (h : Heap) : Heap -> Prop :=
  | calls_New : lib_step h (mkHeap (mem h) (objs h ++ [nil_slice]) (held h))
  | calls_Calculation k d p kl m' d' : nth_error (objs h) k = Some d -> calculates (mem h) d p kl m' d' ->
      lib_step h (mkHeap m' (upd (objs h) k d') (held h))
  | calls_GetData_first k d p kl m' d' : nth_error (objs h) k = Some d -> rsLen d = 0%nat -> calculates (mem h) d p kl m' d' ->
      lib_step h (mkHeap m' (upd (objs h) k d') (held h ++ [d']))
  | calls_GetData k d : nth_error (objs h) k = Some d -> rsLen d <> 0%nat ->
      lib_step h (mkHeap (mem h) (objs h) (held h ++ [d]))
  | calls_Clear k d : nth_error (objs h) k = Some d ->
      lib_step h (mkHeap (mem h) (upd (objs h) k nil_slice) (held h)).

(** One statement of the caller on the [j]-th slice it holds, [s]:
    s[i] = x;  s = append(s, x);  s = s[:n] *)
Inductive own_step (h : Heap) (s : RowSlice) : Heap -> Prop :=
  | writes i x : (i < rsLen s)%nat ->
      own_step h s (mkHeap (upd (mem h) (rsArr s) (upd (array_in (mem h) s) i x)) (objs h) (held h))
  | appends j x m' s' : nth_error (held h) j = Some s -> append1 (mem h) s x m' s' ->
      own_step h s (mkHeap m' (objs h) (upd (held h) j s'))
  | reslices j n : nth_error (held h) j = Some s -> (n <= length (array_in (mem h) s))%nat ->
      own_step h s (mkHeap (mem h) (objs h) (upd (held h) j (mkRS (rsArr s) n))).

(** Runs in which the caller touches only slices that satisfy [ok]. *)
Inductive runs (ok : RowSlice -> Prop) : Heap -> Heap -> Prop :=
  | stop h : runs ok h h
  | lib_then h h1 h2 : lib_step h h1 -> runs ok h1 h2 -> runs ok h h2
  | own_then h s h1 h2 : In s (held h) -> ok s -> own_step h s h1 -> runs ok h1 h2 -> runs ok h h2.
End Rows.
Arguments mkHeap {N I}. Arguments mem {N I}. Arguments objs {N I}. Arguments held {N I}.
