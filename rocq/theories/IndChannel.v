(** * IndChannel: model of the indicators of channel/. *)
From Coq Require Import String.
From Verif Require Import Base Num Ta Sides Klines IndBase IndTrend.
Set Implicit Arguments.

Section Channel.
Context {N : Num}.
Local Notation fl := (list F).
Local Notation cs := (list Candle).

Record Band := mkBand { bUpper : F; bMiddle : F; bLower : F }.

(** Signals of the three channels compare the close price with a line of the row:
    [up i v p] and [down i v p] see price, prevPrice, the row and the previous row *)
Definition price_crossing {A} (kl : cs) (data : list (row A)) (b s : F -> F -> A -> A -> bool)
  : res (list Side) :=
  o <- GetOHLC kl ;;
  analyse (len kl) 1 data (fun i v p =>
    price <- get (oClose o) i ;;
    prevPrice <- get (oClose o) (i - 1) ;;
    Ok (decide (b price prevPrice v p) (s price prevPrice v p))).

(** ** Boll.go *)
Record BollP := mkBollP { blN : Z; blK : Z }.
Record BollV := mkBollV { blUpper : F; blMiddle : F; blLower : F; blMD : F }.
(** 77-93 *)
Definition boll_md (period : Z) (kl : cs) (sma : fl) : res fl :=
  result <- make fzero (len kl) ;;
  '(_, result) <- range_ kl (fun i v '(sum2, result) =>
    let sum2 := sum2 +~ cClose v *~ cClose v in
    if i <? period - 1 then
      result <- set result i (ofZ 0) ;; Ok (sum2, result)
    else
      m <- get sma i ;;
      result <- set result i (fsqrt (sum2 /~ ofZ period -~ m *~ m)) ;;
      w <- get kl (i - (period - 1)) ;;
      Ok (sum2 -~ cClose w *~ cClose w, result)) (ofZ 0, result) ;;
  Ok result.
(** 96-116: PeriodK is not used *)
Definition boll_calc (p : BollP) (kl : cs) (data : list (row BollV)) :=
  sm <- rows_of I_Sma (blN p) kl ;;
  middle <- values (fun v => v) sm ;;
  md <- boll_md (blN p) kl middle ;;
  upper <- Add middle md ;;
  lower <- Subtract middle md ;;
  make_rows (mkBollV fzero fzero fzero fzero) (len kl) (time_at kl) 0 (len middle) (fun i =>
    m <- get middle i ;; u <- get upper i ;; l <- get lower i ;; d <- get md i ;;
    Ok (mkBollV u m l d)).
(** 121-152; line 142 compares prevPrice with itself *)
Definition boll_sides (p : BollP) (kl : cs) (data : list (row BollV)) :=
  price_crossing kl data
    (fun price prevPrice v p => (price >~ blUpper v) && (prevPrice <~ blUpper p))
    (fun price prevPrice v p => (price <~ blLower v) && (prevPrice >~ prevPrice)).
Definition I_Boll := mkIndicator "channel.Boll" boll_calc (Some boll_sides).

(** ** DonchianChannel.go:51-70 *)
Definition donchian_calc (period : Z) (kl : cs) (data : list (row Band)) :=
  o <- GetOHLC kl ;;
  upper <- Max period (oClose o) ;;
  lower <- Min period (oClose o) ;;
  s <- Add upper lower ;;
  middle <- DivideBy s (ofZ 2) ;;
  append_rows (time_at kl) (len middle) (fun i =>
    u <- get upper i ;; m <- get middle i ;; l <- get lower i ;; Ok (mkBand u m l)) data.
(** 75-106; KeltnerChannel.go:80-111 *)
Definition middle_sides (kl : cs) (data : list (row Band)) :=
  price_crossing kl data
    (fun price prevPrice v p => (price >~ bMiddle v) && (prevPrice <~ bMiddle p))
    (fun price prevPrice v p => (price <~ bMiddle v) && (prevPrice >~ bMiddle p)).
Definition I_Donchian := mkIndicator "channel.DonchianChannel" donchian_calc (Some (fun _ => middle_sides)).

(** ** KeltnerChannel.go:52-73 *)
Definition keltner_calc (period : Z) (kl : cs) (data : list (row Band)) :=
  ad <- rows_of I_Atr period kl ;;
  atr <- values_app (@aAtr N) ad ;;
  atr2 <- MultiplyBy atr (ofZ 2) ;;
  md <- rows_of I_Ema period kl ;;
  middle <- values (fun v => v) md ;;
  upper <- Add middle atr2 ;;
  lower <- Subtract middle atr2 ;;
  append_rows (time_at kl) (len middle) (fun i =>
    u <- get upper i ;; m <- get middle i ;; l <- get lower i ;; Ok (mkBand u m l)) data.
Definition I_Keltner := mkIndicator "channel.KeltnerChannel" keltner_calc (Some (fun _ => middle_sides)).

(** ** UlcerIndex.go:48-67 *)
Definition ulcer_calc (period : Z) (kl : cs) (data : list (row F)) :=
  o <- GetOHLC kl ;;
  highClosing <- Max period (oClose o) ;;
  d <- Subtract (oClose o) highClosing ;;
  q <- Divide d highClosing ;;
  dd <- MultiplyBy q (ofZ 100) ;;
  sq <- Multiply dd dd ;;
  avg <- Ema period sq ;;
  ui <- Sqrt avg ;;
  append_rows (time_at kl) (len ui) (get ui) data.
Definition I_Ulcer := mkIndicator "channel.UlcerIndex" ulcer_calc None.
End Channel.
