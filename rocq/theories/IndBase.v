(** * IndBase: what all indicator objects have in common.

    An indicator object of trend/, channel/, volume/, oscillator/ holds its
    parameters, the candles it was constructed on and a private slice [data],
    empty at construction.  [Calculation] fills [data]; [GetData] and
    [AnalysisSide] call [Calculation] first when [data] is empty (for instance
    trend/Ma.go:40-46, trend/Rsi.go:55-60).

    Simplifications.  The candles are a list of values (no nil pointers) which
    does not change between construction and use, so reading them at construction
    (NewDema, NewSuperTrend, ...: m.ohlc = klineItem.GetOHLC()) or at Calculation
    (NewMa, ...) is the same.  The Name string is in Report.v. *)
From Coq Require Import String.
From Verif Require Import Base Num Sides Klines.
Set Implicit Arguments.

(** One entry of [data]: every ...Data struct has a Time and other fields. *)
Record row (A : Type) : Type := mkRow { rTime : Z; rVal : A }.
Arguments mkRow {A}.

Section Ind.
Context {N : Num}.

(** time.Unix(e.kline.Candles[i].TimeUnix, 0) *)
Definition time_at (kl : list Candle) (i : Z) : res Z := c <- get kl i ;; Ok (unix (cTime c)).
(** time.Unix(times[i], 0) for times := ohlc.TimeUnix *)
Definition time_in (times : list Z) (i : Z) : res Z := t <- get times i ;; Ok (unix t).

(** [for i := 0; i < n; i++ { e.data = append(e.data, XData{Time: .., ..}) }] *)
Definition append_rows {A} (tm : Z -> res Z) (n : Z) (f : Z -> res A) (data : list (row A))
  : res (list (row A)) :=
  for_ 0 n (fun i data => t <- tm i ;; v <- f i ;; Ok (data ++ [mkRow t v])) data.
(** [e.data = make([]XData, size); for i := lo; i < n; i++ { e.data[i] = XData{Time: .., ..} }] *)
Definition make_rows {A} (z : A) (size : Z) (tm : Z -> res Z) (lo n : Z) (f : Z -> res A)
  : res (list (row A)) :=
  data <- make (mkRow zero_time z) size ;;
  for_ lo n (fun i data => t <- tm i ;; v <- f i ;; set data i (mkRow t v)) data.

(** [sides := make([]utils.Side, n); for i, v := range e.data { if i < from { continue };
    prev := e.data[i-1]; sides[i] = rule }].  A zero Side is Buy. *)
Definition analyse {A} (n from : Z) (data : list (row A)) (rule : Z -> A -> A -> res Side)
  : res (list Side) :=
  sides <- make Buy n ;;
  range_ data (fun i v sides =>
    if i <? from then Ok sides else
    prev <- get data (i - 1) ;;
    s <- rule i (rVal v) (rVal prev) ;;
    set sides i s) sides.
(** the rule of most indicators: [if b { Buy } else if s { Sell } else { Hold }] *)
Definition decide (b s : bool) : Side := if b then Buy else if s then Sell else Hold.
Definition crossing {A} (kl : list Candle) (data : list (row A)) (b s : A -> A -> bool) : res (list Side) :=
  analyse (len kl) 1 data (fun _ v p => Ok (decide (b v p) (s v p))).

(** An indicator type.  [Calculation p kl data] is the new value of the data
    field; [Sides p kl data] is what AnalysisSide returns once data is filled
    ([None]: the type has no AnalysisSide method). *)
Record Indicator : Type := mkIndicator {
  iname : string;
  Param : Type;
  Val : Type;
  Calculation : Param -> list Candle -> list (row Val) -> res (list (row Val));
  Sides : option (Param -> list Candle -> list (row Val) -> res (list Side)) }.

(** The object: its data field.  Every method returns the new data field as well. *)
Definition GetData (I : Indicator) (p : Param I) (kl : list Candle) (data : list (row (Val I)))
  : res (list (row (Val I))) :=
  if len data =? 0 then Calculation I p kl data else Ok data.
Definition AnalysisSide (I : Indicator) (p : Param I) (kl : list Candle) (data : list (row (Val I)))
  : res (list (row (Val I)) * list Side) :=
  match Sides I with
  | Some f => data <- GetData I p kl data ;; s <- f p kl data ;; Ok (data, s)
  | None => Panic
  end.
(** A fresh object. *)
Definition rows_of (I : Indicator) (p : Param I) (kl : list Candle) : res (list (row (Val I))) :=
  GetData I p kl [].
Definition sides_of (I : Indicator) (p : Param I) (kl : list Candle) : res (list Side) :=
  rmap snd (AnalysisSide I p kl []).

(** Loops that fill slices of the same length with index [i] depending on index
    [i-1] are written over one slice of records (an array of structs instead of
    a struct of arrays). *)
Definition scan_rows {A} (rows : list A) (n : Z) (step : Z -> A -> res A) : res (list A) :=
  for_ 1 n (fun i rows => prev <- get rows (i - 1) ;; r <- step i prev ;; set rows i r) rows.
End Ind.
