(** * Threads: goroutines that use indicator objects.

    What the methods of an indicator do to memory that other goroutines can
    see, one access at a time: load and store of the data field of an object,
    append, make, reads and writes of rows.  Everything else in the methods
    (reading candles, package ta) works on local memory or on candles nobody
    writes, and takes part as the values that are stored.  The accesses of
    different goroutines interleave in any order. *)
From Verif Require Import Base.
Set Implicit Arguments.

Section Threads.
(** one row *)
Variable A : Type.

(** A slice: nil, or the first [n] cells of an array.  An array is named by the
    goroutine that allocated it and a running number. *)
Inductive Slice := Nil | Sl (who arr n : nat).
Definition slen (s : Slice) : nat := match s with Nil => 0 | Sl _ _ n => n end.
Definition Arrays := nat -> list (list A).
Definition cells (m : Arrays) (s : Slice) : list A := match s with Nil => [] | Sl o a _ => nth a (m o) [] end.
Definition rows_at (m : Arrays) (s : Slice) : list A := firstn (slen s) (cells m s).

(** What a goroutine still has to do; [k] is the number of an object, [zero] the
    zero value of the type of the rows. *)
Inductive cmd :=
  | Load (k : nat) (f : Slice -> cmd)
  | Store (k : nat) (s : Slice) (c : cmd)
  | Append (s : Slice) (x : A) (f : Slice -> cmd)
  | Make (zero : A) (n : nat) (f : Slice -> cmd)
  | Write (s : Slice) (i : nat) (x : A) (c : cmd)
  | Read (s : Slice) (i : nat) (f : A -> cmd)
  | Return (s : Slice).

(** arrays, data fields of the objects, goroutines *)
Record World := mkWorld { wMem : Arrays; wObj : nat -> Slice; wRun : nat -> cmd }.
Definition setf B (f : nat -> B) (k : nat) (v : B) : nat -> B := fun j => if (j =? k)%nat then v else f j.
(** cell [i] of array [a] of [o] becomes [x] *)
Definition put (m : Arrays) (o a i : nat) (x : A) : Arrays := setf m o (upd (m o) a (upd (nth a (m o) []) i x)).

(** One access of goroutine [t]; append as in Go: in place when the array has
    room, otherwise into a new array with any spare room. *)
Inductive act (t : nat) (w : World) : World -> Prop :=
  | act_load k f : wRun w t = Load k f -> act t w (mkWorld (wMem w) (wObj w) (setf (wRun w) t (f (wObj w k))))
  | act_store k s c : wRun w t = Store k s c -> act t w (mkWorld (wMem w) (setf (wObj w) k s) (setf (wRun w) t c))
  | act_in_place o a n x f : wRun w t = Append (Sl o a n) x f -> (n < length (nth a (wMem w o) []))%nat ->
      act t w (mkWorld (put (wMem w) o a n x) (wObj w) (setf (wRun w) t (f (Sl o a (S n)))))
  | act_moved s x f spare : wRun w t = Append s x f -> (length (cells (wMem w) s) <= slen s)%nat ->
      act t w (mkWorld (setf (wMem w) t (wMem w t ++ [rows_at (wMem w) s ++ x :: spare])) (wObj w)
        (setf (wRun w) t (f (Sl t (length (wMem w t)) (S (slen s))))))
  | act_make zero n f : wRun w t = Make zero n f ->
      act t w (mkWorld (setf (wMem w) t (wMem w t ++ [repeat zero n])) (wObj w) (setf (wRun w) t (f (Sl t (length (wMem w t)) n))))
  | act_write o a n i x c : wRun w t = Write (Sl o a n) i x c -> (i < n)%nat ->
      act t w (mkWorld (put (wMem w) o a i x) (wObj w) (setf (wRun w) t c))
  | act_read s i x f : wRun w t = Read s i f -> (i < slen s)%nat -> nth_error (cells (wMem w) s) i = Some x ->
      act t w (mkWorld (wMem w) (wObj w) (setf (wRun w) t (f x))).

(** any schedule; and goroutine [t] on its own *)
Inductive run : World -> World -> Prop :=
  | run_stop w : run w w
  | run_step t w w1 w2 : run w w1 -> act t w1 w2 -> run w w2.
Inductive alone (t : nat) : World -> World -> Prop :=
  | alone_stop w : alone t w w
  | alone_step w w1 w2 : act t w w1 -> alone t w1 w2 -> alone t w w2.

(** ** The methods *)
(** Calculation of the types that append: for every row, e.data = append(e.data, row)
    (trend/Ma.go:56-61, trend/Cci.go:76-82, channel/DonchianChannel.go:61-67, ...) *)
Fixpoint append_rows_of (k : nat) (r : list A) (c : cmd) : cmd :=
  match r with
  | [] => c
  | x :: r' => Load k (fun s => Append s x (fun s' => Store k s' (append_rows_of k r' c)))
  end.
(** Calculation of the types that allocate: e.data = make(...), then for every row
    e.data[i] = row (trend/Ema.go:47-53, trend/Macd.go:75-83, channel/Boll.go:99-115, ...);
    the types that set the fields of a row one by one, or twice, are taken to
    write whole rows once. *)
Fixpoint write_rows_of (k i : nat) (r : list A) (c : cmd) : cmd :=
  match r with
  | [] => c
  | x :: r' => Load k (fun s => Write s i x (write_rows_of k (S i) r' c))
  end.
Definition make_rows_of (zero : A) (k : nat) (r : list A) (c : cmd) : cmd := Make zero (length r) (fun s => Store k s (write_rows_of k 0 r c)).
(** GetData (trend/Ma.go:40-46, trend/Ema.go:58-63, ...): [calc c] is Calculation, then [c] *)
Definition get_data (k : nat) (calc : cmd -> cmd) : cmd :=
  Load k (fun s => if (slen s =? 0)%nat then calc (Load k Return) else Load k Return).
End Threads.
Arguments Return {A}. Arguments Load {A}. Arguments mkWorld {A}.
