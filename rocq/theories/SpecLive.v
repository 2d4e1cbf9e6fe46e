(** * SpecLive: a session with an object while the caller changes the candles (property C93). *)
From Coq Require Import String.
From Verif Require Import Base Num Sides Klines IndBase SpecInd.
Set Implicit Arguments.

Section Live.
Context {N : Num}.

(** The constructors of these types copy the candles: m.ohlc = klineItem.GetOHLC()
    (Dema.go:33, LinearRegressionCandles.go:38, BreakoutProbability.go:53,
    SuperTrend.go:43-44, PivotPointSuperTrend.go:43, UTBot.go:36, TraderXO.go:34,
    EMAVegas.go:44, AverageDirectionalIndex.go:42).  All
    others keep the caller's *klines.Item and read its candles at every call. *)
Definition keeps_copy (I : Indicator) : bool :=
  existsb (String.eqb (iname I))
    ["trend.Dema"; "trend.LinearRegressionCandles"; "trend.BreakoutProbability"; "trend.SuperTrend"; "trend.PivotPointSuperTrend";
     "trend.UTBot"; "trend.TraderXO"; "trend.EMAVegas"; "trend.AverageDirectionalIndex"]%string.

(** What a caller does: call a method, or give the item it built the object on other candles. *)
Inductive event := Call (o : op) | Candles (kl : list Candle).
(** [born] are the candles at construction, [now] those at this moment. *)
Fixpoint session (I : Indicator) (p : Param I) (born now : list Candle) (evs : list event) (data : list (row (Val I)))
  : res (list (answer (Val I))) :=
  match evs with
  | [] => Ok []
  | Candles kl :: evs => session I p born kl evs data
  | Call o :: evs =>
      '(data, a) <- call I p (if keeps_copy I then born else now) o data ;;
      l <- session I p born now evs data ;; Ok (a :: l)
  end.
(** a new object on the candles [kl] *)
Definition on (I : Indicator) (p : Param I) (kl : list Candle) (evs : list event) : res (list (answer (Val I))) :=
  session I p kl kl evs [].
Definition calls_of (evs : list event) : list op :=
  flat_map (fun e => match e with Call o => [o] | Candles _ => [] end) evs.
End Live.
