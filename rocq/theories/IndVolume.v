(** * IndVolume: model of the indicators of volume/. *)
From Coq Require Import String.
From Verif Require Import Base Num Ta Sides Klines IndBase.
Set Implicit Arguments.

Section Volume.
Context {N : Num}.
Local Notation fl := (list F).
Local Notation cs := (list Candle).

(** ** AccumulationDistribution.go *)
(** 62 *)
Definition ad_val (h l c v : F) : F := v *~ (((c -~ l) -~ (h -~ c)) /~ (h -~ l)).
(** 47-77; ad[i] += 0 is kept: it turns a negative zero into a positive one *)
Definition ad_calc (_ : unit) (kl : cs) (data : list (row F)) :=
  o <- GetOHLC kl ;;
  ad <- make fzero (len (oClose o)) ;;
  '(_, data) <- for_ 0 (len ad) (fun i '(ad, data) =>
    ad <- (if i >? 0 then p <- get ad (i - 1) ;; set ad i p else Ok ad) ;;
    v <- get (oVolume o) i ;; c <- get (oClose o) i ;; l <- get (oLow o) i ;; h <- get (oHigh o) i ;;
    let val := ad_val h l c v in
    a <- get ad i ;;
    ad <- set ad i (if isNaN val then a +~ ofZ 0 else a +~ val) ;;
    t <- time_at kl i ;;
    a <- get ad i ;;
    Ok (ad, data ++ [mkRow t a])) (ad, data) ;;
  Ok data.
Definition I_AD := mkIndicator "volume.AccumulationDistribution" ad_calc None.

(** ** ChaikinMoneyFlow.go:52-79 *)
Definition cmf_calc (period : Z) (kl : cs) (data : list (row F)) :=
  o <- GetOHLC kl ;;
  a <- Subtract (oClose o) (oLow o) ;;
  b <- Subtract (oHigh o) (oClose o) ;;
  num <- Subtract a b ;;
  den <- Subtract (oHigh o) (oLow o) ;;
  mult <- Divide num den ;;
  mfv <- Multiply mult (oVolume o) ;;
  s1 <- Sum period mfv ;;
  s2 <- Sum period (oVolume o) ;;
  cmf <- Divide s1 s2 ;;
  append_rows (time_at kl) (len cmf) (get cmf) data.
Definition I_CMF := mkIndicator "volume.ChaikinMoneyFlow" cmf_calc None.

(** ** EaseOfMovement.go:48-69 *)
Definition emv_calc (period : Z) (kl : cs) (data : list (row F)) :=
  o <- GetOHLC kl ;;
  s <- Add (oHigh o) (oLow o) ;;
  mid <- DivideBy s (ofZ 2) ;;
  distanceMoved <- Diff mid 1 ;;
  v <- DivideBy (oVolume o) (ofZ 100000000) ;;
  r <- Subtract (oHigh o) (oLow o) ;;
  boxRatio <- Divide v r ;;
  q <- Divide distanceMoved boxRatio ;;
  emv <- Sma period q ;;
  append_rows (time_at kl) (len emv) (get emv) data.
Definition I_EMV := mkIndicator "volume.EaseOfMovement" emv_calc None.

(** ** ForceIndex.go:44-61 *)
Definition force_calc (period : Z) (kl : cs) (data : list (row F)) :=
  o <- GetOHLC kl ;;
  d <- Diff (oClose o) 1 ;;
  m <- Multiply d (oVolume o) ;;
  vals <- Ema period m ;;
  append_rows (time_at kl) (len vals) (get vals) data.
Definition I_Force := mkIndicator "volume.ForceIndex" force_calc None.

(** ** MoneyFlowIndex.go *)
(** 60-63 *)
Definition mfi_typical (highs lows closes : fl) : res fl :=
  typicalPrice <- make fzero (len closes) ;;
  for_ 0 (len typicalPrice) (fun i t =>
    h <- get highs i ;; l <- get lows i ;; c <- get closes i ;;
    set t i ((h +~ l +~ c) /~ ofZ 3)) typicalPrice.
(** 51-86 *)
Definition mfi_calc (period : Z) (kl : cs) (data : list (row F)) :=
  o <- GetOHLC kl ;;
  typicalPrice <- mfi_typical (oHigh o) (oLow o) (oClose o) ;;
  raw <- Multiply typicalPrice (oVolume o) ;;
  d <- Diff raw 1 ;;
  signs <- ExtractSign d ;;
  flow <- Multiply signs raw ;;
  pos <- KeepPositives flow ;;
  neg <- KeepNegatives flow ;;
  sp <- Sum period pos ;;
  mneg <- MultiplyBy neg (ofZ (-1)) ;;
  sn <- Sum period mneg ;;
  ratio <- Divide sp sn ;;
  r1 <- AddBy ratio (ofZ 1) ;;
  pw <- Pow r1 (ofZ (-1)) ;;
  m <- MultiplyBy pw (ofZ (-100)) ;;
  mfi <- AddBy m (ofZ 100) ;;
  append_rows (time_at kl) (len mfi) (get mfi) data.
(** 92-118 *)
Definition mfi_sides (kl : cs) (data : list (row F)) :=
  crossing kl data
    (fun v p => (v <~ ofZ 10) && (p >~ ofZ 10))
    (fun v p => (v >~ ofZ 90) && (p <~ ofZ 90)).
Definition I_MFI := mkIndicator "volume.MoneyFlowIndex" mfi_calc (Some (fun _ => mfi_sides)).

(** ** NegativeVolumeIndex.go:46-72 *)
Definition nvi (closing volume : fl) : res fl :=
  nvi <- make fzero (len closing) ;;
  for_ 0 (len nvi) (fun i nvi =>
    if i =? 0 then set nvi i (ofZ 1000) else
    vp <- get volume (i - 1) ;; v <- get volume i ;;
    p <- get nvi (i - 1) ;;
    if vp <~ v then set nvi i p else
    c <- get closing i ;; cp <- get closing (i - 1) ;;
    set nvi i (p +~ (((c -~ cp) /~ cp) *~ p))) nvi.
Definition nvi_calc (_ : unit) (kl : cs) (data : list (row F)) :=
  o <- GetOHLC kl ;;
  v <- nvi (oClose o) (oVolume o) ;;
  append_rows (time_at kl) (len v) (get v) data.
Definition I_NVI := mkIndicator "volume.NegativeVolumeIndex" nvi_calc None.

(** ** Obv.go:35-65: reads e.data[i-1] while appending to e.data *)
Definition obv_calc (_ : unit) (kl : cs) (data : list (row F)) :=
  o <- GetOHLC kl ;;
  for_ 0 (len kl) (fun i data =>
    value <- (if i - 1 =? -1 then Ok (ofZ 0) else
      c <- get (oClose o) i ;; cp <- get (oClose o) (i - 1) ;;
      if c >~ cp then r <- get data (i - 1) ;; v <- get (oVolume o) i ;; Ok (rVal r +~ v)
      else if c <~ cp then r <- get data (i - 1) ;; v <- get (oVolume o) i ;; Ok (rVal r -~ v)
      else if c ==~ cp then r <- get data (i - 1) ;; Ok (rVal r)
      else Ok fzero) ;;
    t <- time_in (oTime o) i ;;
    Ok (data ++ [mkRow t value])) data.
Definition I_Obv := mkIndicator "volume.Obv" obv_calc None.

(** ** VolumePriceTrend.go:44-63: closing[0] panics without candles *)
Definition vpt_calc (period : Z) (kl : cs) (data : list (row F)) :=
  o <- GetOHLC kl ;;
  c0 <- get (oClose o) 0 ;;
  prev <- ShiftRightAndFillBy period c0 (oClose o) ;;
  d <- Subtract (oClose o) prev ;;
  q <- Divide d prev ;;
  vpt <- Multiply (oVolume o) q ;;
  vals <- Sum (len vpt) vpt ;;
  append_rows (time_at kl) (len vals) (get vals) data.
Definition I_VPT := mkIndicator "volume.VolumePriceTrend" vpt_calc None.

(** ** Vwma.go:47-62 *)
Definition vwma_calc (period : Z) (kl : cs) (data : list (row F)) :=
  o <- GetOHLC kl ;;
  m <- Multiply (oClose o) (oVolume o) ;;
  s1 <- Sum period m ;;
  s2 <- Sum period (oVolume o) ;;
  v <- Divide s1 s2 ;;
  append_rows (time_at kl) (len v) (get v) data.
Definition I_Vwma := mkIndicator "volume.Vwma" vwma_calc None.
End Volume.
