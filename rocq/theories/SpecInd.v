(** * SpecInd: what the properties of indicator objects say, independently of the models. *)
From Verif Require Import Base Num Sides Klines IndBase.
Set Implicit Arguments.

Section Spec.
Context {N : Num}.

(** [out kl] is what an object constructed on the candles [kl] reports. *)
(** The entries reported for the candles seen so far are not changed by later candles. *)
Definition never_repaints {A} (out : list Candle -> res (list A)) : Prop :=
  forall kl later r r', out kl = Ok r -> out (kl ++ later) = Ok r' -> firstn (length kl) r' = r.
Definition one_per_candle {A} (out : list Candle -> res (list A)) : Prop :=
  forall kl r, out kl = Ok r -> length r = length kl.
(** every row carries the time of its candle, from row [k] on *)
Definition stamped_from {A} (k : nat) (out : list Candle -> res (list (row A))) : Prop :=
  forall kl r i x c, out kl = Ok r -> (k <= i)%nat ->
    nth_error r i = Some x -> nth_error kl i = Some c -> rTime x = unix (cTime c).

(** Method calls on one object. *)
Inductive op := CallCalculation | CallGetData | CallAnalysisSide.
Inductive answer (A : Type) := Done | Rows (r : list (row A)) | SideList (s : list Side).
Arguments Done {A}. Arguments Rows {A}. Arguments SideList {A}.
Definition call (I : Indicator) (p : Param I) (kl : list Candle) (o : op) (data : list (row (Val I)))
  : res (list (row (Val I)) * answer (Val I)) :=
  match o with
  | CallCalculation => d <- Calculation I p kl data ;; Ok (d, Done)
  | CallGetData => d <- GetData I p kl data ;; Ok (d, Rows d)
  | CallAnalysisSide => '(d, s) <- AnalysisSide I p kl data ;; Ok (d, SideList s)
  end.
Fixpoint calls (I : Indicator) (p : Param I) (kl : list Candle) (ops : list op) (data : list (row (Val I)))
  : res (list (answer (Val I))) :=
  match ops with
  | [] => Ok []
  | o :: ops => '(data, a) <- call I p kl o data ;; l <- calls I p kl ops data ;; Ok (a :: l)
  end.
(** each call answers what it answers when it is the first call on a new object *)
Definition as_first (I : Indicator) (p : Param I) (kl : list Candle) (o : op) (a : answer (Val I)) : Prop :=
  match o, a with
  | CallCalculation, Done => True
  | CallGetData, Rows r => rows_of I p kl = Ok r
  | CallAnalysisSide, SideList s => sides_of I p kl = Ok s
  | _, _ => False
  end.

(** The signal of a bar: Buy when the buy condition holds, else Sell when the sell
    condition holds, else Hold. *)
Definition signal (buy sell : Prop) (s : Side) : Prop :=
  (buy -> s = Buy) /\ (~ buy -> sell -> s = Sell) /\ (~ buy -> ~ sell -> s = Hold).
(** From bar [from] on, signal [i] follows from row [i], row [i-1], candle [i], candle [i-1]. *)
Definition follows (I : Indicator) (p : Param I) (from : Z)
    (buy sell : Candle -> Candle -> Val I -> Val I -> Prop) : Prop :=
  forall kl rows sides, rows_of I p kl = Ok rows -> sides_of I p kl = Ok sides ->
    forall i c c' v v' s, from <= Z.of_nat i -> (1 <= i)%nat ->
      nth_error kl i = Some c -> nth_error kl (pred i) = Some c' ->
      nth_error rows i = Some v -> nth_error rows (pred i) = Some v' -> nth_error sides i = Some s ->
      signal (buy c c' (rVal v) (rVal v')) (sell c c' (rVal v) (rVal v')) s.
End Spec.
Arguments Done {A}. Arguments Rows {A}. Arguments SideList {A}.
