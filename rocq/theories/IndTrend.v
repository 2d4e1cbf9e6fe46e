(** * IndTrend: model of the indicators of trend/ (all but SmartMoneyConcepts). *)
From Coq Require Import String.
From Verif Require Import Base Num Ta Sides Klines IndBase.
Set Implicit Arguments.

Section Trend.
Context {N : Num}.
Local Notation fl := (list F).
Local Notation cs := (list Candle).

(** ** Ma.go:49-63 *)
Definition ma_calc (period : Z) (kl : cs) (data : list (row F)) :=
  o <- GetOHLC kl ;;
  maData <- Sma period (oClose o) ;;
  append_rows (time_at kl) (len maData) (get maData) data.
Definition I_Ma := mkIndicator "trend.Ma" ma_calc None.

(** ** Sma.go:40-55 *)
Definition sma_calc (period : Z) (kl : cs) (data : list (row F)) :=
  o <- GetOHLC kl ;;
  smas <- Sma period (oClose o) ;;
  make_rows fzero (len kl) (time_at kl) 0 (len smas) (get smas).
Definition I_Sma := mkIndicator "trend.Sma" sma_calc None.
(** GetValues: Sma.go:66-76 (and Ema.go:66-75, AccumulationDistribution.go:80-89, ...):
    [val := make([]float64, len(e.data)); for i, v := range e.data { val[i] = v.Value }] *)
Definition values {A} (f : A -> F) (data : list (row A)) : res fl :=
  val <- make fzero (len data) ;;
  range_ data (fun i v val => set val i (f (rVal v))) val.
(** GetValue of Rsi.go:91-101, GetValues of Atr.go:104-113: append style *)
Definition values_app {A} (f : A -> F) (data : list (row A)) : res fl :=
  range_ data (fun i v val => Ok (val ++ [f (rVal v)])) [].

(** ** Ema.go:40-55 *)
Definition ema_calc (period : Z) (kl : cs) (data : list (row F)) :=
  o <- GetOHLC kl ;;
  vals <- Ema period (oClose o) ;;
  make_rows fzero (len vals) (time_at kl) 0 (len kl) (get vals).
Definition I_Ema := mkIndicator "trend.Ema" ema_calc None.

(** ** Dema.go:53-70 *)
Definition dema_calc (period : Z) (kl : cs) (data : list (row F)) :=
  o <- GetOHLC kl ;;
  demas <- Dema period (oClose o) ;;
  make_rows fzero (len (oClose o)) (time_in (oTime o)) 0 (len demas) (get demas).
Definition I_Dema := mkIndicator "trend.Dema" dema_calc None.

(** ** Rma.go:39-53: make([]RmaData, len(rma)) and then append *)
Definition rma_calc (period : Z) (kl : cs) (data : list (row F)) :=
  o <- GetOHLC kl ;;
  rma <- Rma period (oClose o) ;;
  data <- make (mkRow zero_time fzero) (len rma) ;;
  append_rows (time_at kl) (len rma) (get rma) data.
Definition I_Rma := mkIndicator "trend.Rma" rma_calc None.

(** ** Rsi.go *)
(** 142-147, 184-189 *)
Definition rsi_out (gain loss : F) : F :=
  let t := gain +~ loss in
  if negb ((lit (-1) 100000000000000 <~ t) && (t <~ lit 1 100000000000000))
  then ofZ 100 *~ (gain /~ t) else ofZ 0.
(** 128-134, 177-181: one price change added to the loss or to the gain *)
Definition rsi_add (change gain loss : F) : F * F :=
  if change <~ ofZ 0 then (gain, loss -~ change) else (gain +~ change, loss).
(** 103-194.  After the first loop today = period + 1 > 0, so the else branch
    (150-167) is dead; from then on outIdx = today at the top of each iteration. *)
Definition rsi (inReal : fl) (p : Z) : res fl :=
  outReal <- make fzero (len inReal) ;;
  if len inReal <? p then Ok outReal else
  if p <? 2 then Ok outReal else
  prev <- get inReal 0 ;;
  '(prev, gain, loss) <- for_ 1 (p + 1) (fun today '(prev, gain, loss) =>
     v <- get inReal today ;;
     let '(gain, loss) := rsi_add (v -~ prev) gain loss in
     Ok (v, gain, loss)) (prev, fzero, fzero) ;;
  let loss := loss /~ ofZ p in
  let gain := gain /~ ofZ p in
  outReal <- set outReal p (rsi_out gain loss) ;;
  '(_, _, _, outReal) <- for_ (p + 1) (len inReal) (fun today '(prev, gain, loss, outReal) =>
     v <- get inReal today ;;
     let loss := loss *~ ofZ (p - 1) in
     let gain := gain *~ ofZ (p - 1) in
     let '(gain, loss) := rsi_add (v -~ prev) gain loss in
     let loss := loss /~ ofZ p in
     let gain := gain /~ ofZ p in
     outReal <- set outReal today (rsi_out gain loss) ;;
     Ok (v, gain, loss, outReal)) (prev, gain, loss, outReal) ;;
  Ok outReal.
(** 40-52 *)
Definition rsi_calc (period : Z) (kl : cs) (data : list (row F)) :=
  o <- GetOHLC kl ;;
  r <- rsi (oClose o) period ;;
  append_rows (time_at kl) (len r) (get r) data.
(** 55-80 *)
Definition rsi_sides (period : Z) (kl : cs) (data : list (row F)) :=
  crossing kl data
    (fun v p => (v <~ ofZ 20) && (p >~ ofZ 20))
    (fun v p => (v <~ ofZ 80) && (p >~ ofZ 80)).
Definition I_Rsi := mkIndicator "trend.Rsi" rsi_calc (Some rsi_sides).

(** ** StochRsi.go *)
Record KD := mkKD { kdK : F; kdD : F }.
Record StochRsiP := mkStochRsiP { srK : Z; srD : Z; srRsi : Z; srStoch : Z }.
(** 49-67 *)
Definition stochrsi_calc (p : StochRsiP) (kl : cs) (data : list (row KD)) :=
  rs <- rows_of I_Rsi (srRsi p) kl ;;
  rsi <- values_app (fun v => v) rs ;;
  highestHigh <- Max (srStoch p) rsi ;;
  lowestLow <- Min (srStoch p) rsi ;;
  a <- Subtract rsi lowestLow ;;
  b <- Subtract highestHigh lowestLow ;;
  q <- Divide a b ;;
  q <- MultiplyBy q (ofZ 100) ;;
  k <- Ema (srK p) q ;;
  d <- Ema (srD p) k ;;
  append_rows (time_at kl) (len k) (fun i => k <- get k i ;; d <- get d i ;; Ok (mkKD k d)) data.
(** 70-96; the same rule in StochasticOscillator.go:88-114 *)
Definition kd_sides (kl : cs) (data : list (row KD)) :=
  crossing kl data
    (fun v p => (kdK v >~ kdD v) && (kdK p <~ kdD p))
    (fun v p => (kdK v <~ kdD v) && (kdK p >~ kdD p)).
Definition I_StochRsi := mkIndicator "trend.StochRsi" stochrsi_calc (Some (fun _ => kd_sides)).

(** ** Macd.go *)
Record MacdP := mkMacdP { mShort : Z; mSignal : Z; mLong : Z }.
Record MacdV := mkMacdV { mDIF : F; mDEA : F; mMacd : F }.
(** 64-87 *)
Definition macd_calc (p : MacdP) (kl : cs) (data : list (row MacdV)) :=
  o <- GetOHLC kl ;;
  a <- Ema (mShort p) (oClose o) ;;
  b <- Ema (mLong p) (oClose o) ;;
  difs <- Subtract a b ;;
  deas <- Ema (mSignal p) difs ;;
  make_rows (mkMacdV fzero fzero fzero) (len kl) (time_at kl) 0 (len difs) (fun i =>
    dif <- get difs i ;; dea <- get deas i ;;
    Ok (mkMacdV dif dea ((dif -~ dea) *~ ofZ 2))).
(** 90-115 *)
Definition macd_sides (p : MacdP) (kl : cs) (data : list (row MacdV)) :=
  crossing kl data
    (fun v p => (mDIF v >~ ofZ 0) && (mDEA v >~ ofZ 0) && (mDIF v >~ mDEA v) && (mDIF p <~ mDEA p))
    (fun v p => (mDIF v <~ ofZ 0) && (mDEA v <~ ofZ 0) && (mDIF v <~ mDEA v) && (mDIF p >~ mDEA p)).
Definition I_Macd := mkIndicator "trend.Macd" macd_calc (Some macd_sides).

(** ** Kdj.go *)
Record KdjV := mkKdjV { kRSV : F; kK : F; kD : F; kJ : F }.
(** 246-258, 260-272 *)
Definition arrayLowest (a : fl) : res F :=
  lowest <- get a 0 ;;
  for_ 1 (len a) (fun i lowest => v <- get a i ;; Ok (if v <~ lowest then v else lowest)) lowest.
Definition arrayHighest (a : fl) : res F :=
  highest <- get a 0 ;;
  for_ 1 (len a) (fun i highest => v <- get a i ;; Ok (if v >~ highest then v else highest)) highest.
(** 133-180; one slice of (rsv, k, d) records for the three slices *)
Definition kdj_kd (period : Z) (lows highs closes : fl) : res (list (F * F * F)) :=
  out <- make (fzero, fzero, fzero) (len lows) ;;
  '(_, _, out) <- for_ 0 (len lows) (fun i '(la, ha, out) =>
    l <- get lows i ;;
    h <- get highs i ;;
    let la := la ++ [l] in
    let ha := ha ++ [h] in
    if period =? len la then
      lowest <- arrayLowest la ;;
      highest <- arrayHighest ha ;;
      rsv <- (if highest -~ lowest <~ lit 1 1000000 then Ok (ofZ 100)
              else c <- get closes i ;; Ok ((c -~ lowest) /~ (highest -~ lowest) *~ ofZ 100)) ;;
      '(_, pk, pd) <- get out (i - 1) ;;
      let k := lit 2 3 *~ pk +~ lit 1 3 *~ rsv in
      let d := lit 2 3 *~ pd +~ lit 1 3 *~ k in
      out <- set out i (rsv, k, d) ;;
      la <- slice la 1 (len la) ;;
      ha <- slice ha 1 (len ha) ;;
      Ok (la, ha, out)
    else
      out <- set out i (ofZ 0, ofZ 50, ofZ 50) ;;
      Ok (la, ha, out)) ([], [], out) ;;
  Ok out.
(** 46-65; calculationJ (183-190) is [j[i] = 3*k - 2*d] *)
Definition kdj_j (k d : F) : F := ofZ 3 *~ k -~ ofZ 2 *~ d.
Definition kdj_calc (period : Z) (kl : cs) (data : list (row KdjV)) :=
  o <- GetOHLC kl ;;
  kd <- kdj_kd period (oLow o) (oHigh o) (oClose o) ;;
  make_rows (mkKdjV fzero fzero fzero fzero) (len kd) (time_at kl) 0 (len kd) (fun i =>
    '(rsv, k, d) <- get kd i ;; Ok (mkKdjV rsv k d (kdj_j k d))).
(** 69-95 *)
Definition kdj_sides (period : Z) (kl : cs) (data : list (row KdjV)) :=
  crossing kl data
    (fun v p => (kK v >~ kD v) && (kJ v >~ kD v) && (kK p <~ kD p) && (kJ p <~ kD p))
    (fun v p => (kK v <~ kD v) && (kJ v <~ kD v) && (kK p >~ kD p) && (kJ p >~ kD p)).
Definition I_Kdj := mkIndicator "trend.Kdj" kdj_calc (Some kdj_sides).

(** ** Atr.go *)
Record AtrV := mkAtrV { aTR : F; aAtr : F }.
(** 44-61 *)
Definition atr_tr (kl : cs) (highs lows closes : fl) : res fl :=
  tr <- make fzero (len kl) ;;
  for_ 0 (len kl) (fun i tr =>
    prevClose <- (if negb (i =? 0) then get closes (i - 1) else Ok fzero) ;;
    h <- get highs i ;; l <- get lows i ;;
    set tr i (fmax (h -~ l) (fmax (h -~ prevClose) (l -~ prevClose)))) tr.
(** 42-74 *)
Definition atr_calc (period : Z) (kl : cs) (data : list (row AtrV)) :=
  o <- GetOHLC kl ;;
  tr <- atr_tr kl (oHigh o) (oLow o) (oClose o) ;;
  atr <- Rma period tr ;;
  make_rows (mkAtrV fzero fzero) (len kl) (time_at kl) 0 (len atr) (fun i =>
    t <- get tr i ;; v <- get atr i ;; Ok (mkAtrV t v)).
Definition I_Atr := mkIndicator "trend.Atr" atr_calc None.
(** 82-101; atrPeriod is the object's Period, data its data field *)
Definition ChandelierExit (atrPeriod : Z) (kl : cs) (data : list (row AtrV)) (period : Z) : res (fl * fl) :=
  data <- (if len data =? 0 then atr_calc atrPeriod kl data else Ok data) ;;
  o <- GetOHLC kl ;;
  highestHigh22 <- Max period (oHigh o) ;;
  lowestLow22 <- Min period (oLow o) ;;
  long <- make fzero (len data) ;;
  short <- make fzero (len data) ;;
  for_ 0 (len long) (fun i '(long, short) =>
    hh <- get highestHigh22 i ;;
    r <- get data i ;;
    long <- set long i (hh -~ aAtr (rVal r) *~ ofZ 3) ;;
    ll <- get lowestLow22 i ;;
    short <- set short i (ll +~ aAtr (rVal r) *~ ofZ 3) ;;
    Ok (long, short)) (long, short).

(** ** Cci.go *)
Record CciP := mkCciP { cciPeriod : Z; cciSma : Z }.
(** 70-84 *)
Definition cci_calc (p : CciP) (kl : cs) (data : list (row F)) :=
  hlc3 <- HLC3 kl ;;
  ccis <- CCI hlc3 (cciPeriod p) (cciSma p) ;;
  append_rows (time_at kl) (len ccis) (get ccis) data.
(** 150-176; AiCoinCCI.go:79-105 *)
Definition cci_sides (kl : cs) (data : list (row F)) :=
  crossing kl data
    (fun v p => (v <~ ofZ (-100)) && (p >~ ofZ (-100)))
    (fun v p => (v >~ ofZ 100) && (p <~ ofZ 100)).
Definition I_Cci := mkIndicator "trend.Cci" cci_calc (Some (fun _ => cci_sides)).

(** ** AiCoinCCI.go:62-76; factor is 0.015 (31-39) *)
Definition aicoin_calc (period : Z) (kl : cs) (data : list (row F)) :=
  o <- GetOHLC kl ;;
  ccis <- AiCoinCCI (oClose o) period (lit 15 1000) ;;
  append_rows (time_at kl) (len ccis) (get ccis) data.
Definition I_AiCoinCCI := mkIndicator "trend.AiCoinCCI" aicoin_calc (Some (fun _ => cci_sides)).
(** 47-59 *)
Definition ComputeCCI (close matp md : fl) : res fl :=
  cci <- make fzero (len close) ;;
  for_ 0 (len close) (fun i cci =>
    m <- get md i ;;
    if m ==~ ofZ 0 then set cci i (ofZ 0) else
    c <- get close i ;; a <- get matp i ;;
    set cci i ((c -~ a) /~ (lit 15 1000 *~ m))) cci.

(** ** Vortex.go *)
Record VortexV := mkVortexV { vPlus : F; vMinus : F }.
(** 41-80; state: the running sums (57), the ring buffers (53-55), plusVi and
    minusVi as one slice of pairs *)
Definition vortex (period : Z) (high low closing : fl) : res (list VortexV) :=
  out <- make (mkVortexV fzero fzero) (len high) ;;
  plusVm <- make fzero period ;;
  minusVm <- make fzero period ;;
  tr <- make fzero period ;;
  '(_, _, _, _, _, _, out) <- for_ 1 (len high) (fun i '(sPlus, sMinus, sTr, plusVm, minusVm, tr, out) =>
    j <- zmod i period ;;
    old <- get plusVm j ;;
    h <- get high i ;; pl <- get low (i - 1) ;;
    let p := fabs (h -~ pl) in
    plusVm <- set plusVm j p ;;
    let sPlus := sPlus -~ old +~ p in
    old <- get minusVm j ;;
    l <- get low i ;; ph <- get high (i - 1) ;;
    let m := fabs (l -~ ph) in
    minusVm <- set minusVm j m ;;
    let sMinus := sMinus -~ old +~ m in
    pc <- get closing (i - 1) ;;
    old <- get tr j ;;
    let t := fmax (h -~ l) (fmax (fabs (h -~ pc)) (fabs (l -~ pc))) in
    tr <- set tr j t ;;
    let sTr := sTr -~ old +~ t in
    out <- set out i (mkVortexV (sPlus /~ sTr) (sMinus /~ sTr)) ;;
    Ok (sPlus, sMinus, sTr, plusVm, minusVm, tr, out))
    (fzero, fzero, fzero, plusVm, minusVm, tr, out) ;;
  Ok out.
(** 82-90 *)
Definition vortex_calc (period : Z) (kl : cs) (data : list (row VortexV)) :=
  o <- GetOHLC kl ;;
  out <- vortex period (oHigh o) (oLow o) (oClose o) ;;
  append_rows (time_at kl) (len out) (get out) data.
Definition I_Vortex := mkIndicator "trend.Vortex" vortex_calc None.

(** ** StochasticHeat.go *)
(** utils/types: SMA, EMA, WMA are 2, 4, 8 *)
Definition tSMA : Z := 2.
Definition tEMA : Z := 4.
Definition tWMA : Z := 8.
Record HeatP := mkHeatP { hInc : Z; hFast : Z; hSlow : Z; hPlot : Z; hMA : Z }.
Record HeatV := mkHeatV { hvFast : F; hvSlow : F }.
(** 166-180 *)
Definition getStoch (p : HeatP) (closing highs lows : fl) (i : Z) : res fl :=
  '(k, _) <- Stochastic closing highs lows (i * hInc p) ;;
  if hMA p =? tEMA then Ema (hFast p) k
  else if hMA p =? tSMA then Sma (hFast p) k
  else if hMA p =? tWMA then Wma (hFast p) k
  else Ok k.
(** 109-115 *)
Definition heat_slow (p : HeatP) (fast : fl) : res fl :=
  if hMA p =? tEMA then Ema (hSlow p) fast
  else if hMA p =? tSMA then Sma (hSlow p) fast
  else Wma (hSlow p) fast.
(** 73-100: the 28 lines *)
Definition heat_lines (p : HeatP) (closing highs lows : fl) : res (list fl) :=
  for_ 1 29 (fun i acc => s <- getStoch p closing highs lows i ;; Ok (acc ++ [s])) [].
(** 106: stoch1[i] + ... + stoch28[i], left to right *)
Definition heat_sum (lines : list fl) (i : Z) : res F :=
  match lines with
  | [] => Ok fzero
  | l0 :: rest =>
    v0 <- get l0 i ;;
    range_ rest (fun _ l s => v <- get l i ;; Ok (s +~ v)) v0
  end.
(** 59-163 *)
Definition heat (p : HeatP) (n : Z) (closing highs lows : fl) : res (fl * fl) :=
  lines <- heat_lines p closing highs lows ;;
  fast <- make fzero n ;;
  slow <- make fzero n ;;
  for_ 0 n (fun i '(fast, slow) =>
    s <- heat_sum lines i ;;
    let getAverage := s /~ ofZ (hPlot p) in
    fast <- set fast i (getAverage /~ ofZ 100 *~ ofZ (hPlot p)) ;;
    slow <- heat_slow p fast ;;
    Ok (fast, slow)) (fast, slow).
Definition heat_calc (p : HeatP) (kl : cs) (data : list (row HeatV)) :=
  o <- GetOHLC kl ;;
  '(fast, slow) <- heat p (len kl) (oClose o) (oHigh o) (oLow o) ;;
  append_rows (time_at kl) (len kl) (fun i =>
    f <- get fast i ;; s <- get slow i ;; Ok (mkHeatV f s)) data.
(** 183-209 *)
Definition heat_sides (p : HeatP) (kl : cs) (data : list (row HeatV)) :=
  crossing kl data
    (fun v p => (hvSlow p <~ hvFast p) && (hvSlow v >~ hvFast v))
    (fun v p => (hvSlow p >~ hvFast p) && (hvSlow v <~ hvFast v)).
Definition I_StochasticHeat := mkIndicator "trend.StochasticHeat" heat_calc (Some heat_sides).

(** ** SuperTrend.go *)
Record STP := mkSTP { stPeriod : Z; stMult : Z; stChange : bool }.
(** 27-33 *)
Record STV := mkSTV { sUp : F; sUpBegin : F; sDn : F; sDnBegin : F }.
(** one index of up, upb, dn, dnb, trend (73-79); up1 and dn1 are used at the
    index where they are written only, so they are local here *)
Record STRow := mkSTRow { r_up : F; r_upb : F; r_dn : F; r_dnb : F; r_trend : F }.
Definition st_zero : STRow := mkSTRow fzero fzero fzero fzero fzero.
(** 109-134 *)
Definition st_step (mult : Z) (src atr closePrev close : F) (prev : STRow) : STRow :=
  let up := src -~ (ofZ mult *~ atr) in
  let up1 := Nz (r_up prev) up in
  let up := if closePrev >~ up1 then fmax up up1 else up in
  let dn := src +~ (ofZ mult *~ atr) in
  let dn1 := Nz (r_dn prev) dn in
  let dn := if closePrev <~ dn1 then fmin dn dn1 else dn in
  let trend := Nz (r_trend prev) (ofZ 1) in
  let trend :=
    if (trend ==~ ofZ (-1)) && (close >~ dn1) then ofZ 1
    else if (trend ==~ ofZ 1) && (close <~ up1) then ofZ (-1) else trend in
  let b1 := (trend ==~ ofZ 1) && (r_trend prev ==~ ofZ (-1)) in
  let b2 := (trend ==~ ofZ (-1)) && (r_trend prev ==~ ofZ 1) in
  mkSTRow up (if b1 then up else fzero) dn (if negb b1 && b2 then dn else fzero) trend.
(** 95-100 *)
Definition st_atr (p : STP) (o : OHLC) : res fl :=
  if stChange p then Atr (oHigh o) (oLow o) (oClose o) (stPeriod p)
  else natr <- Natr (oHigh o) (oLow o) (oClose o) (stPeriod p) ;; Sma (stPeriod p) natr.
(** 102-135 *)
Definition supertrend (p : STP) (o : OHLC) (src : fl) : res (list STRow) :=
  rows <- make st_zero (len (oClose o)) ;;
  atr <- st_atr p o ;;
  rows <- (if 0 <? len src then set rows 0 (mkSTRow fzero fzero fzero fzero (ofZ 1)) else Ok rows) ;;
  scan_rows rows (len src) (fun i prev =>
    s <- get src i ;; a <- get atr i ;; cp <- get (oClose o) (i - 1) ;; c <- get (oClose o) i ;;
    Ok (st_step (stMult p) s a cp c prev)).
(** 66-149 *)
Definition st_zeroV : STV := mkSTV fzero fzero fzero fzero.
Definition supertrend_calc (p : STP) (kl : cs) (data : list (row STV)) :=
  o <- GetOHLC kl ;;
  hl2 <- HL2 kl ;;
  rows <- supertrend p o hl2 ;;
  make_rows st_zeroV (len (oClose o)) (time_in (oTime o)) 0 (len (oClose o)) (fun i =>
    r <- get rows i ;; Ok (mkSTV (r_up r) (r_upb r) (r_dn r) (r_dnb r))).
(** 172-195, PivotPointSuperTrend.go:153-177 *)
Definition begin_sides (data : list (row STV)) :=
  analyse (len data) 1 data (fun _ v _ =>
    Ok (decide (negb (sUpBegin v ==~ ofZ 0)) (negb (sDnBegin v ==~ ofZ 0)))).
Definition I_SuperTrend := mkIndicator "trend.SuperTrend" supertrend_calc (Some (fun _ _ => begin_sides)).

(** ** PivotPointSuperTrend.go *)
Record PPP := mkPPP { ppPeriod : Z; ppAtr : Z; ppFactor : F }.
(** one index of tUP, tDown, tCenter, trend (76-79) and of e.data *)
Record PPRow := mkPPRow { p_up : F; p_dn : F; p_center : F; p_trend : Z; p_out : STV }.
Definition pp_zero : PPRow := mkPPRow fzero fzero fzero 0 st_zeroV.
(** 95-126 *)
Definition pp_step (factor ph pl atr closePrev c : F) (prev : PPRow) : PPRow :=
  let lastpp := if ph >~ ofZ 0 then ph else if pl >~ ofZ 0 then pl else ofZ 0 in
  let center :=
    if negb (lastpp ==~ ofZ 0) then
      if p_center prev ==~ ofZ 0 then lastpp else (p_center prev *~ ofZ 2 +~ lastpp) /~ ofZ 3
    else p_center prev in
  let Up := center -~ factor *~ atr in
  let Dn := center +~ factor *~ atr in
  let up := if closePrev >~ p_up prev then fmax Up (p_up prev) else Up in
  let dn := if closePrev <~ p_dn prev then fmin Dn (p_dn prev) else Dn in
  let trend := if c >~ p_dn prev then 1 else if c <~ p_up prev then -1 else p_trend prev in
  let sl := if trend =? 1 then up else dn in
  mkPPRow up dn center trend (mkSTV
    (if (trend =? 1) && (p_trend prev =? 1) then sl else ofZ 0)
    (if (trend =? 1) && (p_trend prev =? -1) then sl else ofZ 0)
    (if (trend =? -1) && (p_trend prev =? -1) then sl else ofZ 0)
    (if (trend =? -1) && (p_trend prev =? 1) then sl else ofZ 0)).
(** 65-130; row 0 keeps the zero Time and zero values *)
Definition ppsupertrend (p : PPP) (o : OHLC) : res (list PPRow) :=
  ph <- PivotHigh (oHigh o) (ppPeriod p) (ppPeriod p) ;;
  pl <- PivotLow (oLow o) (ppPeriod p) (ppPeriod p) ;;
  atr <- Atr (oHigh o) (oLow o) (oClose o) (ppAtr p) ;;
  rows <- make pp_zero (len (oClose o)) ;;
  scan_rows rows (len (oClose o)) (fun i prev =>
    c <- get (oClose o) i ;; h <- get ph i ;; l <- get pl i ;; cp <- get (oClose o) (i - 1) ;;
    a <- get atr i ;;
    Ok (pp_step (ppFactor p) h l a cp c prev)).
Definition ppst_calc (p : PPP) (kl : cs) (data : list (row STV)) :=
  o <- GetOHLC kl ;;
  rows <- ppsupertrend p o ;;
  make_rows st_zeroV (len (oClose o)) (time_in (oTime o)) 1 (len (oClose o)) (fun i =>
    r <- get rows i ;; Ok (p_out r)).
Definition I_PPST := mkIndicator "trend.PivotPointSuperTrend" ppst_calc (Some (fun _ _ => begin_sides)).

(** ** UTBot.go *)
Record UTP := mkUTP { utPeriod : Z; utAtr : Z }.
Record UTV := mkUTV { uClose : F; uValue : F }.
(** 79-90 *)
Definition ut_step (period : Z) (atr close closePrev stop : F) : F :=
  let nLoss := ofZ period *~ atr in
  if (close >~ stop) && (closePrev >~ stop) then fmax stop (close -~ nLoss)
  else if (close <~ stop) && (closePrev <~ stop) then fmin stop (close +~ nLoss)
  else if close >~ stop then close -~ nLoss
  else close +~ nLoss.
(** 57-101; row 0 keeps the zero Time and zero values *)
Definition utbot (p : UTP) (o : OHLC) : res fl :=
  atr <- Atr (oHigh o) (oLow o) (oClose o) (utAtr p) ;;
  stops <- make fzero (len (oClose o)) ;;
  scan_rows stops (len (oClose o)) (fun i stop =>
    c <- get (oClose o) i ;; a <- get atr i ;; cp <- get (oClose o) (i - 1) ;;
    Ok (ut_step (utPeriod p) a c cp stop)).
Definition utbot_calc (p : UTP) (kl : cs) (data : list (row UTV)) :=
  o <- GetOHLC kl ;;
  stops <- utbot p o ;;
  make_rows (mkUTV fzero fzero) (len (oClose o)) (time_in (oTime o)) 1 (len (oClose o)) (fun i =>
    c <- get (oClose o) i ;; s <- get stops i ;; Ok (mkUTV c s)).
(** 104-136 *)
Definition utbot_sides (data : list (row UTV)) :=
  analyse (len data) 1 data (fun _ v p =>
    let above := (uClose v >~ uValue v) && (uClose p <~ uValue p) in
    let below := (uClose v <~ uValue v) && (uClose p >~ uValue p) in
    Ok (decide ((uClose v >~ uValue v) && above) ((uClose v <~ uValue v) && below))).
Definition I_UTBot := mkIndicator "trend.UTBot" utbot_calc (Some (fun _ _ => utbot_sides)).

(** ** TraderXO.go *)
Record XOP := mkXOP { xFastP : Z; xSlowP : Z }.
Record XOV := mkXOV { xFast : F; xSlow : F }.
(** 55-80 *)
Definition traderxo_calc (p : XOP) (kl : cs) (data : list (row XOV)) :=
  o <- GetOHLC kl ;;
  fast <- Ema (xFastP p) (oClose o) ;;
  slow <- Ema (xSlowP p) (oClose o) ;;
  make_rows (mkXOV fzero fzero) (len (oClose o)) (time_in (oTime o)) 0 (len (oClose o)) (fun i =>
    f <- get fast i ;; s <- get slow i ;; Ok (mkXOV f s)).
(** 116-157: countBuy, countSell, buys, sells, sides *)
Record XOS := mkXOS { xcb : Z; xcs : Z; xbuys : list bool; xsells : list bool; xsides : list Side }.
Definition traderxo_sides (data : list (row XOV)) : res (list Side) :=
  sides <- make Buy (len data) ;;
  buys <- make false (len data) ;;
  sells <- make false (len data) ;;
  s <- for_ 0 (len data) (fun i s =>
    if i <? 1 then
      sides <- set (xsides s) i Hold ;;
      Ok (mkXOS (xcb s) (xcs s) (xbuys s) (xsells s) sides)
    else
      r <- get data i ;;
      let v := rVal r in
      let b := xFast v >~ xSlow v in
      let l := xFast v <~ xSlow v in
      buys <- set (xbuys s) i b ;;
      sells <- set (xsells s) i l ;;
      let cb := if b then xcb s + 1 else xcb s in
      let cs := if b then 0 else xcs s in
      let cs := if l then cs + 1 else cs in
      let cb := if l then 0 else cb in
      pb <- get buys (i - 1) ;;
      ps <- get sells (i - 1) ;;
      let buysignal := (cb <? 2) && (cb >? 0) && (cs <? 1) && b && negb pb in
      let sellsignal := (cs >? 0) && (cs <? 2) && (cb <? 1) && l && negb ps in
      sides <- set (xsides s) i (decide buysignal sellsignal) ;;
      Ok (mkXOS cb cs buys sells sides)) (mkXOS 0 0 buys sells sides) ;;
  Ok (xsides s).
Definition I_TraderXO := mkIndicator "trend.TraderXO" traderxo_calc (Some (fun _ _ => traderxo_sides)).

(** ** EMAVegas.go *)
Record VegasP := mkVegasP { vgP : Z; vgS1 : Z; vgS2 : Z; vgL1 : Z; vgL2 : Z }.
Record VegasV := mkVegasV { gV : F; gS1 : F; gS2 : F; gL1 : F; gL2 : F }.
(** 68-97; the final clear() calls only touch the local slices *)
Definition vegas_calc (p : VegasP) (kl : cs) (data : list (row VegasV)) :=
  o <- GetOHLC kl ;;
  ema <- Ema (vgP p) (oClose o) ;;
  s1 <- Ema (vgS1 p) (oClose o) ;;
  s2 <- Ema (vgS2 p) (oClose o) ;;
  l1 <- Ema (vgL1 p) (oClose o) ;;
  l2 <- Ema (vgL2 p) (oClose o) ;;
  make_rows (mkVegasV fzero fzero fzero fzero fzero) (len (oClose o)) (time_in (oTime o)) 0 (len s1) (fun i =>
    v <- get ema i ;; a <- get s1 i ;; b <- get s2 i ;; c <- get l1 i ;; d <- get l2 i ;;
    Ok (mkVegasV v a b c d)).
(** 121-130: golden / dead crosses of the second short line and the second long
    line among the ten previous bars *)
Definition vegas_cross (data : list (row VegasV)) (i : Z) : res (bool * bool) :=
  for_ (i - 10) i (fun k '(t1, d1) =>
    d <- get data k ;; dp <- get data (k - 1) ;;
    let v := rVal d in let p := rVal dp in
    let t1 := if (gS2 v >~ gL2 v) && (gS2 p <~ gL2 p) then true else t1 in
    let d1 := if (gS2 v <~ gL2 v) && (gS2 p >~ gL2 p) then true else d1 in
    Ok (t1, d1)) (false, false).
(** 100-151 *)
Definition vegas_up (v : VegasV) : bool :=
  (gV v >~ gS1 v) && (gS1 v >~ gL1 v) && (gS1 v >~ gL2 v) && (gS2 v >~ gL1 v) && (gS2 v >~ gL2 v).
Definition vegas_dn (v : VegasV) : bool :=
  (gV v <~ gS1 v) && (gS1 v <~ gL1 v) && (gS1 v <~ gL2 v) && (gS2 v <~ gL1 v) && (gS2 v <~ gL2 v).
Definition vegas_sides (kl : cs) (data : list (row VegasV)) : res (list Side) :=
  o <- GetOHLC kl ;;
  sides <- make Buy (len (oBull o)) ;;
  for_ 0 (len data) (fun i sides =>
    if i <? 1 then Ok sides else
    r <- get data i ;;
    if i - 10 - 1 <? 0 then Ok sides else
    '(t1, d1) <- vegas_cross data i ;;
    bull <- get (oBull o) i ;;
    set sides i (decide (vegas_up (rVal r) && bull && t1) (vegas_dn (rVal r) && negb bull && d1))) sides.
Definition I_EMAVegas := mkIndicator "trend.EMAVegas" vegas_calc (Some (fun _ => vegas_sides)).

(** ** AverageDirectionalIndex.go *)
Record AdxP := mkAdxP { axPeriod : Z; axLen : Z }.
Record AdxV := mkAdxV { axPlus : F; axMinus : F; axADX : F }.
(** 64-66 *)
Definition calculateTR (h l pc : F) : F := fmax (h -~ l) (fmax (fabs (h -~ pc)) (fabs (l -~ pc))).
(** 71-82 *)
Definition calculateDM (h ph l pl : F) : F * F :=
  let upMove := h -~ ph in
  let downMove := pl -~ l in
  (if (upMove >~ downMove) && (upMove >~ ofZ 0) then upMove else fzero,
   if (downMove >~ upMove) && (downMove >~ ofZ 0) then downMove else fzero).
(** 86-92 *)
Definition smoothValues (values : fl) (period : Z) : res fl :=
  smoothed <- make fzero (len values) ;;
  for_ 1 (len values) (fun i s =>
    p <- get s (i - 1) ;; v <- get values i ;;
    set s i (p -~ p /~ ofZ period +~ v)) smoothed.
(** 104-112 *)
Definition adx_dm (high low close : fl) : res (fl * fl * fl) :=
  tr <- make fzero (len close) ;;
  plusDM <- make fzero (len close) ;;
  minusDM <- make fzero (len close) ;;
  for_ 1 (len close) (fun i '(tr, plusDM, minusDM) =>
    h <- get high i ;; l <- get low i ;; pc <- get close (i - 1) ;;
    tr <- set tr i (calculateTR h l pc) ;;
    ph <- get high (i - 1) ;; pl <- get low (i - 1) ;;
    let '(u, d) := calculateDM h ph l pl in
    plusDM <- set plusDM i u ;;
    minusDM <- set minusDM i d ;;
    Ok (tr, plusDM, minusDM)) (tr, plusDM, minusDM).
(** 120-128: plusDI, minusDI and dx at one index *)
Definition adx_di (p m t : F) : F * F * F :=
  let plusDI := p /~ t *~ ofZ 100 in
  let minusDI := m /~ t *~ ofZ 100 in
  (plusDI, minusDI, ofZ 100 *~ (fabs (plusDI -~ minusDI) /~ (plusDI +~ minusDI))).
Definition adx_lines (period : Z) (n : Z) (sTR sP sM : fl) : res (fl * fl * fl) :=
  plusDI <- make fzero n ;;
  minusDI <- make fzero n ;;
  dx <- make fzero n ;;
  for_ (period - 1) n (fun i '(plusDI, minusDI, dx) =>
    p <- get sP i ;; t <- get sTR i ;; m <- get sM i ;;
    let '(a, b, c) := adx_di p m t in
    plusDI <- set plusDI i a ;;
    minusDI <- set minusDI i b ;;
    dx <- set dx i c ;;
    Ok (plusDI, minusDI, dx)) (plusDI, minusDI, dx).
(** 95-144 *)
Definition adx_calc (p : AdxP) (kl : cs) (data : list (row AdxV)) :=
  o <- GetOHLC kl ;;
  '(tr, plusDM, minusDM) <- adx_dm (oHigh o) (oLow o) (oClose o) ;;
  sTR <- smoothValues tr (axLen p) ;;
  sP <- smoothValues plusDM (axLen p) ;;
  sM <- smoothValues minusDM (axLen p) ;;
  '(plusDI, minusDI, dx) <- adx_lines (axPeriod p) (len (oClose o)) sTR sP sM ;;
  sDX <- Sma (axLen p) dx ;;
  make_rows (mkAdxV fzero fzero fzero) (len (oClose o)) (time_in (oTime o)) 0 (len (oClose o)) (fun i =>
    a <- get plusDI i ;; b <- get minusDI i ;; c <- get sDX i ;; Ok (mkAdxV a b c)).
Definition I_ADX := mkIndicator "trend.AverageDirectionalIndex" adx_calc None.

(** ** LinearRegressionCandles.go *)
Record LrcP := mkLrcP { lrSmooth : Z; lrLength : Z; lrSMA : bool }.
Record LrcV := mkLrcV { lcOpen : F; lcClose : F; lcHigh : F; lcLow : F; lcSignal : F }.
(** 59-99 *)
Definition lrc_calc (p : LrcP) (kl : cs) (data : list (row LrcV)) :=
  o <- GetOHLC kl ;;
  bopen <- LinearReg (oOpen o) (lrLength p) ;;
  bhigh <- LinearReg (oHigh o) (lrLength p) ;;
  blow <- LinearReg (oLow o) (lrLength p) ;;
  bclose <- LinearReg (oClose o) (lrLength p) ;;
  signal <- (if lrSMA p then Sma (lrSmooth p) bclose else Ema (lrSmooth p) bclose) ;;
  make_rows (mkLrcV fzero fzero fzero fzero fzero) (len (oClose o)) (time_in (oTime o)) 0 (len (oClose o)) (fun i =>
    a <- get bopen i ;; b <- get bclose i ;; c <- get bhigh i ;; d <- get blow i ;; e <- get signal i ;;
    Ok (mkLrcV a b c d e)).
Definition I_LRC := mkIndicator "trend.LinearRegressionCandles" lrc_calc None.

(** ** ReversalSignals.go *)
(** 88-101: pbs and pss *)
Definition rev_pbs (l l1 l2 l3 : F) : bool :=
  ((l <=~ l3) && (l <=~ l2)) || ((l1 <~ l3) && (l1 <=~ l2)).
Definition rev_pss (h h1 h2 h3 : F) : bool :=
  ((h >=~ h3) && (h >=~ h2)) || ((h1 >=~ h3) && (h1 >=~ h2)).
(** 47-107; the data rows are (Time, Side); state: bullishCount, bearishCount, rows *)
Definition reversal_calc (_ : unit) (kl : cs) (data : list (row Side)) :=
  o <- GetOHLC kl ;;
  data <- make (mkRow zero_time Buy) (len kl) ;;
  '(_, _, data) <- for_ 0 (len kl) (fun i '(bull, bear, data) =>
    close <- get (oClose o) i ;; high <- get (oHigh o) i ;; low <- get (oLow o) i ;;
    t <- time_at kl i ;;
    data <- set data i (mkRow t Hold) ;;
    if i <? 4 then Ok (bull, bear, data) else
    c4 <- get (oClose o) (i - 4) ;;
    let con := close <~ c4 in
    let bull' := if con then bull + 1 else 0 in
    let bear' := if con then 0 else bear + 1 in
    l1 <- get (oLow o) (i - 1) ;; l2 <- get (oLow o) (i - 2) ;; l3 <- get (oLow o) (i - 3) ;;
    data <- (if (bull' =? 9) && rev_pbs low l1 l2 l3 then set data i (mkRow t Buy) else Ok data) ;;
    h1 <- get (oHigh o) (i - 1) ;; h2 <- get (oHigh o) (i - 2) ;; h3 <- get (oHigh o) (i - 3) ;;
    data <- (if (bear' =? 9) && rev_pss high h1 h2 h3 then set data i (mkRow t Sell) else Ok data) ;;
    Ok (bull', bear', data)) (0, 0, data) ;;
  Ok data.
Definition I_Reversal := mkIndicator "trend.ReversalSignals" reversal_calc None.

(** ** BreakoutProbability.go *)
Record BPP := mkBPP { bpStep : F; bpLines : Z }.
(** 42-47, 64-69: NumberOfLines is clamped by the constructors *)
Definition bp_clamp (n : Z) : Z := let n := if n <? 1 then 1 else n in if n >? 5 then 5 else n.
Record BPItem := mkBPItem { biPrice : F; biPer : F; biUp : bool }.
Record BPV := mkBPV { bvList : list BPItem; bvWin : F; bvLoss : F }.
Definition bp_item0 : BPItem := mkBPItem fzero fzero false.
(** matrices: total is 7 x 4 ints, vals 5 x 4 floats (96-104) *)
Definition get2 {A} (m : list (list A)) (i j : Z) : res A := r <- get m i ;; get r j.
Definition set2 {A} (m : list (list A)) (i j : Z) (v : A) : res (list (list A)) :=
  r <- get m i ;; r <- set r j v ;; set m i r.
Definition matZ := list (list Z).
Definition matF := list (list F).
(** 219-246 *)
Definition bp_hit (green : bool) (hh : bool) (row_ col tot : Z) (st : matZ * matF) : res (matZ * matF) :=
  let '(total, vals) := st in
  old <- get2 total row_ col ;;
  if green && hh then
    total <- set2 total row_ col (old + 1) ;;
    vals <- set2 vals row_ col (ofZ (old + 1) /~ ofZ tot *~ ofZ 100) ;;
    Ok (total, vals)
  else Ok (total, vals).
Definition bp_score (x : F) (row_ : Z) (green red : bool) (high highPrev low lowPrev : F) (st : matZ * matF)
  : res (matZ * matF) :=
  gtotal <- get2 (fst st) 5 0 ;;
  rtotal <- get2 (fst st) 5 1 ;;
  let hh := high >~ (highPrev +~ x) in
  let ll := low >~ (lowPrev -~ x) in
  st <- bp_hit green hh row_ 0 gtotal st ;;
  st <- bp_hit green ll row_ 1 gtotal st ;;
  st <- bp_hit red hh row_ 2 rtotal st ;;
  bp_hit red ll row_ 3 rtotal st.
(** 200-216 *)
Definition bp_backtest (total : matZ) (high highPrev low v : F) : res matZ :=
  p1 <- get2 total 6 0 ;;
  p2 <- get2 total 6 1 ;;
  if v ==~ highPrev then
    if high >=~ v then set2 total 6 0 (p1 + 1) else set2 total 6 1 (p2 + 1)
  else
    if low <=~ v then set2 total 6 0 (p1 + 1) else set2 total 6 1 (p2 + 1).
(** 145-165 *)
Definition bp_list (lines : Z) (green red : bool) (h l step : F) (vals : matF) : res (list BPItem) :=
  lst <- make bp_item0 10 ;;
  for_ 0 lines (fun i lst =>
    v0 <- get2 vals i 0 ;; v1 <- get2 vals i 1 ;; v2 <- get2 vals i 2 ;; v3 <- get2 vals i 3 ;;
    if (green && (fmin v0 v1 >~ ofZ 0)) || (red && (fmin v2 v3 >~ ofZ 0)) then
      lst <- set lst i (mkBPItem (h +~ step *~ ofZ i) (if green then v0 else v2) true) ;;
      set lst (5 + i) (mkBPItem (l -~ step *~ ofZ i) (if green then v1 else v3) false)
    else Ok lst) lst.
(** 112-187: one bar *)
Definition bp_bar (p : BPP) (o h l c op cp hp lp : F) (st : matZ * matF) : res (matZ * matF * BPV) :=
  let step := c *~ (bpStep p /~ ofZ 100) in
  let green := cp >~ op in
  let red := cp <~ op in
  let '(total, vals) := st in
  g <- get2 total 5 0 ;;
  total <- set2 total 5 0 (g + (if green then 1 else 0)) ;;
  r <- get2 total 5 1 ;;
  total <- set2 total 5 1 (r + (if red then 1 else 0)) ;;
  st <- bp_score (ofZ 0) 0 green red h hp l lp (total, vals) ;;
  st <- bp_score step 1 green red h hp l lp st ;;
  st <- bp_score (step *~ ofZ 2) 2 green red h hp l lp st ;;
  st <- bp_score (step *~ ofZ 3) 3 green red h hp l lp st ;;
  '(total, vals) <- bp_score (step *~ ofZ 4) 4 green red h hp l lp st ;;
  a1 <- get2 vals 0 0 ;; b1 <- get2 vals 0 1 ;; a2 <- get2 vals 0 2 ;; b2 <- get2 vals 0 3 ;;
  lst <- bp_list (bp_clamp (bpLines p)) green red h l step vals ;;
  total <- (if green then
              if fmax a1 b1 ==~ a1 then bp_backtest total h hp l hp else bp_backtest total h hp l lp
            else
              if fmax a2 b2 ==~ a2 then bp_backtest total h hp l hp else bp_backtest total h hp l lp) ;;
  win <- get2 total 6 0 ;;
  loss <- get2 total 6 1 ;;
  Ok (total, vals, mkBPV lst (ofZ win) (ofZ loss)).
(** 96-104 *)
Definition bp_init : matZ * matF :=
  (repeat [0; 0; 0; 0] 7, repeat [fzero; fzero; fzero; fzero] 5).
(** 85-190; row 0 keeps the zero Time and a nil List *)
Definition bp_calc (p : BPP) (kl : cs) (data : list (row BPV)) :=
  oh <- GetOHLC kl ;;
  data <- make (mkRow zero_time (mkBPV [] fzero fzero)) (len (oClose oh)) ;;
  '(_, data) <- for_ 1 (len (oClose oh)) (fun i '(st, data) =>
    t <- time_in (oTime oh) i ;;
    o <- get (oOpen oh) i ;; h <- get (oHigh oh) i ;; l <- get (oLow oh) i ;; c <- get (oClose oh) i ;;
    op <- get (oOpen oh) (i - 1) ;; cp <- get (oClose oh) (i - 1) ;;
    hp <- get (oHigh oh) (i - 1) ;; lp <- get (oLow oh) (i - 1) ;;
    '(total, vals, v) <- bp_bar p o h l c op cp hp lp st ;;
    data <- set data i (mkRow t v) ;;
    Ok ((total, vals), data)) (bp_init, data) ;;
  Ok data.
Definition I_BreakoutProbability := mkIndicator "trend.BreakoutProbability" bp_calc None.
End Trend.
