(** * IndOsc: model of the indicators of oscillator/. *)
From Coq Require Import String.
From Verif Require Import Base Num Ta Regression Sides Klines IndBase IndTrend IndChannel IndVolume.
Set Implicit Arguments.

Section Osc.
Context {N : Num}.
Local Notation fl := (list F).
Local Notation cs := (list Candle).

(** AbsolutePriceOscillator.go:54-80, AwesomeOscillator.go:57-83 *)
Definition sign_sides (kl : cs) (data : list (row F)) :=
  crossing kl data
    (fun v p => (v >~ ofZ 0) && (p <~ ofZ 0))
    (fun v p => (v <~ ofZ 0) && (p >~ ofZ 0)).

(** ** AbsolutePriceOscillator.go:34-51; the constructor (28-31) sets 14 and 30 *)
Record FastSlow := mkFS { fsFast : Z; fsSlow : Z }.
Definition apo_default : FastSlow := mkFS 14 30.
Definition apo_calc (p : FastSlow) (kl : cs) (data : list (row F)) :=
  o <- GetOHLC kl ;;
  fast <- Ema (fsFast p) (oClose o) ;;
  slow <- Ema (fsSlow p) (oClose o) ;;
  apo <- Subtract fast slow ;;
  make_rows fzero (len apo) (time_at kl) 0 (len apo) (get apo).
Definition I_APO := mkIndicator "oscillator.AbsolutePriceOscillator" apo_calc (Some (fun _ => sign_sides)).

(** ** AwesomeOscillator.go:36-54 *)
Definition ao_calc (_ : unit) (kl : cs) (data : list (row F)) :=
  o <- GetOHLC kl ;;
  s <- Add (oLow o) (oHigh o) ;;
  median <- DivideBy s (ofZ 2) ;;
  sma5 <- Ema 5 median ;;
  sma34 <- Ema 34 median ;;
  ao <- Subtract sma5 sma34 ;;
  append_rows (time_at kl) (len ao) (get ao) data.
Definition I_AO := mkIndicator "oscillator.AwesomeOscillator" ao_calc (Some (fun _ => sign_sides)).

(** ** Camarilla.go *)
Record CamV := mkCamV {
  caEMA : F; caPivot : F;
  caH1 : F; caH2 : F; caH3 : F; caH4 : F; caH5 : F; caH6 : F;
  caL1 : F; caL2 : F; caL3 : F; caL4 : F; caL5 : F; caL6 : F }.
(** 83-112 *)
Definition getCamarilla (high low close ema pivot : F) : CamV :=
  let h5 := (high /~ low) *~ close in
  let h4 := close +~ (high -~ low) *~ lit 11 10 /~ ofZ 2 in
  let h3 := close +~ (high -~ low) *~ lit 11 10 /~ ofZ 4 in
  let h2 := close +~ (high -~ low) *~ lit 11 10 /~ ofZ 6 in
  let h1 := close +~ (high -~ low) *~ lit 11 10 /~ ofZ 12 in
  let l1 := close -~ (high -~ low) *~ lit 11 10 /~ ofZ 12 in
  let l2 := close -~ (high -~ low) *~ lit 11 10 /~ ofZ 6 in
  let l3 := close -~ (high -~ low) *~ lit 11 10 /~ ofZ 4 in
  let l4 := close -~ (high -~ low) *~ lit 11 10 /~ ofZ 2 in
  let h6 := h5 +~ lit 1168 1000 *~ (h5 -~ h4) in
  let l5 := close -~ (h5 -~ close) in
  let l6 := close -~ (h6 -~ close) in
  mkCamV ema pivot h1 h2 h3 h4 h5 h6 l1 l2 l3 l4 l5 l6.
(** AnalysisSide takes the daily candles as an argument, and compares calendar
    days in the local time zone (132): both are part of the parameters here;
    [camSameDay] is any relation between the two times *)
Record CamP := mkCamP { camEMA : Z; camDaily : cs; camSameDay : Z -> Z -> bool }.
Definition cam_zero : CamV :=
  mkCamV fzero fzero fzero fzero fzero fzero fzero fzero fzero fzero fzero fzero fzero fzero.
(** 55-81; data holds pointers, nil until written: every index is written *)
Definition cam_calc0 (emaPeriod : Z) (kl : cs) : res (list (row CamV)) :=
  o <- GetOHLC kl ;;
  hlc3 <- HLC3 kl ;;
  emas <- Ema emaPeriod (oClose o) ;;
  make_rows cam_zero (len kl) (time_at kl) 0 (len kl) (fun i =>
    h <- get (oHigh o) i ;; l <- get (oLow o) i ;; c <- get (oClose o) i ;;
    e <- get emas i ;; p <- get hlc3 i ;;
    Ok (getCamarilla h l c e p)).
Definition cam_calc (p : CamP) (kl : cs) (data : list (row CamV)) := cam_calc0 (camEMA p) kl.
(** 131-136: the first daily row of the same calendar day, else the one found last *)
Definition cam_find (same : Z -> Z -> bool) (t : Z) (days : list (row CamV)) (old : option CamV) : option CamV :=
  match find (fun d => same (rTime d) t) days with
  | Some d => Some (rVal d)
  | None => old
  end.
(** 115-155 *)
Definition cam_sides (p : CamP) (kl : cs) (data : list (row CamV)) : res (list Side) :=
  sides <- make Buy (len kl) ;;
  days <- cam_calc0 (camEMA p) (camDaily p) ;;
  o <- GetOHLC kl ;;
  '(_, sides) <- range_ data (fun i r '(sec, sides) =>
    let sec := cam_find (camSameDay p) (rTime r) days sec in
    close <- get (oClose o) i ;;
    open <- get (oOpen o) i ;;
    let v := rVal r in
    let b := match sec with
             | Some s => (close <~ caEMA v) && (close >~ caH4 s) && (open <~ caH4 s)
             | None => false end in
    let s := match sec with
             | Some s => (close >~ caEMA v) && (close <~ caH4 s) && (open >~ caH4 s)
             | None => false end in
    sides <- set sides i (decide b s) ;;
    Ok (sec, sides)) (None, sides) ;;
  Ok sides.
Definition I_Camarilla := mkIndicator "oscillator.Camarilla" cam_calc (Some cam_sides).

(** ** ChaikinOscillator.go *)
Record ChaikinV := mkChaikinV { coValue : F; coAD : F }.
(** 51-69 *)
Definition chaikin_calc (p : FastSlow) (kl : cs) (data : list (row ChaikinV)) :=
  rs <- rows_of I_AD tt kl ;;
  ad <- values (fun v => v) rs ;;
  fast <- Ema (fsFast p) ad ;;
  slow <- Ema (fsSlow p) ad ;;
  co <- Subtract fast slow ;;
  append_rows (time_at kl) (len co) (fun i =>
    c <- get co i ;; a <- get ad i ;; Ok (mkChaikinV c a)) data.
(** 72-108 *)
Definition chaikin_sides (kl : cs) (data : list (row ChaikinV)) :=
  crossing kl data
    (fun v p => (coValue v >~ ofZ 0) && (coValue p <~ ofZ 0))
    (fun v p => (coValue v <~ ofZ 0) && (coValue p >~ ofZ 0)).
Definition I_Chaikin := mkIndicator "oscillator.ChaikinOscillator" chaikin_calc (Some (fun _ => chaikin_sides)).

(** ** IchimokuCloud.go *)
Record IchiP := mkIchiP { icConv : Z; icSpanB : Z; icLag : Z }.
Record IchiV := mkIchiV { iConv : F; iBase : F; iSpanA : F; iSpanB : F; iLag : F }.
(** ta.DivideBy(ta.Add(ta.Max(a, high), ta.Min(b, low)), 2) *)
Definition mid_line (a b : Z) (high low : fl) : res fl :=
  h <- Max a high ;; l <- Min b low ;; s <- Add h l ;; DivideBy s (ofZ 2).
(** 61-93: the high side of the conversion line uses 9, whatever the period *)
Definition ichi_calc (p : IchiP) (kl : cs) (data : list (row IchiV)) :=
  o <- GetOHLC kl ;;
  conv <- mid_line 9 (icConv p) (oHigh o) (oLow o) ;;
  base <- mid_line 26 26 (oHigh o) (oLow o) ;;
  s <- Add conv base ;;
  spanA <- DivideBy s (ofZ 2) ;;
  spanB <- mid_line (icSpanB p) (icSpanB p) (oHigh o) (oLow o) ;;
  lag <- ShiftRight (icLag p) (oClose o) ;;
  append_rows (time_at kl) (len conv) (fun i =>
    a <- get conv i ;; b <- get base i ;; c <- get spanA i ;; d <- get spanB i ;; e <- get lag i ;;
    Ok (mkIchiV a b c d e)) data.
(** 110-141 *)
Definition ichi_sides (p : IchiP) (kl : cs) (data : list (row IchiV)) : res (list Side) :=
  o <- GetOHLC kl ;;
  analyse (len kl) (icConv p) data (fun i v w =>
    close <- get (oClose o) i ;;
    prevClose <- get (oClose o) (i - 1) ;;
    Ok (decide
      ((close >~ iSpanA v) && (close >~ iSpanB v) && (prevClose <~ iSpanA w) && (prevClose <~ iSpanB w))
      ((close <~ iSpanA v) && (close <~ iSpanB v) && (prevClose >~ iSpanA w) && (prevClose >~ iSpanB w)))).
Definition I_Ichimoku := mkIndicator "oscillator.IchimokuCloud" ichi_calc (Some ichi_sides).

(** ** PercentagePriceOscillator.go *)
Record PPOP := mkPPOP { poFast : Z; poSlow : Z; poSignal : Z }.
Record PPOV := mkPPOV { ppoV : F; ppoSignal : F; ppoHist : F }.
(** 55-79 *)
Definition ppo_calc (p : PPOP) (kl : cs) (data : list (row PPOV)) :=
  o <- GetOHLC kl ;;
  fast <- Ema (poFast p) (oClose o) ;;
  slow <- Ema (poSlow p) (oClose o) ;;
  d <- Subtract fast slow ;;
  q <- Divide d slow ;;
  ppo <- MultiplyBy q (ofZ 100) ;;
  signal <- Ema (poSignal p) ppo ;;
  hist <- Subtract ppo signal ;;
  append_rows (time_at kl) (len ppo) (fun i =>
    a <- get ppo i ;; b <- get signal i ;; c <- get hist i ;; Ok (mkPPOV a b c)) data.
(** 84-110 *)
Definition ppo_sides (kl : cs) (data : list (row PPOV)) :=
  crossing kl data
    (fun v p => (ppoV v >~ ppoSignal v) && (ppoV p <~ ppoSignal p))
    (fun v p => (ppoV v <~ ppoSignal v) && (ppoV p >~ ppoSignal p)).
Definition I_PPO := mkIndicator "oscillator.PercentagePriceOscillator" ppo_calc (Some (fun _ => ppo_sides)).

(** ** ProjectionOscillator.go *)
Record ProjP := mkProjP { pjPeriod : Z; pjSmooth : Z }.
Record ProjV := mkProjV { pjPo : F; pjSpo : F }.
(** 49-78 *)
Definition proj_calc (p : ProjP) (kl : cs) (data : list (row ProjV)) :=
  o <- GetOHLC kl ;;
  x <- GenerateNumbers (ofZ 0) (ofZ (len (oClose o))) (ofZ 1) ;;
  '(mHigh, _) <- MovingLeastSquare (pjPeriod p) x (oHigh o) ;;
  '(mLow, _) <- MovingLeastSquare (pjPeriod p) x (oLow o) ;;
  a <- Multiply mHigh x ;;
  vHigh <- Add (oHigh o) a ;;
  b <- Multiply mLow x ;;
  vLow <- Add (oLow o) b ;;
  pu <- Max (pjPeriod p) vHigh ;;
  pl <- Min (pjPeriod p) vLow ;;
  d <- Subtract (oClose o) pl ;;
  n <- MultiplyBy d (ofZ 100) ;;
  w <- Subtract pu pl ;;
  po <- Divide n w ;;
  spo <- Ema (pjSmooth p) po ;;
  append_rows (time_at kl) (len po) (fun i =>
    a <- get po i ;; b <- get spo i ;; Ok (mkProjV a b)) data.
(** 81-106: the previous row is not looked at *)
Definition proj_sides (kl : cs) (data : list (row ProjV)) :=
  analyse (len kl) 1 data (fun _ v _ => Ok (decide (pjPo v >~ pjSpo v) (pjPo v <~ pjSpo v))).
Definition I_Projection := mkIndicator "oscillator.ProjectionOscillator" proj_calc (Some (fun _ => proj_sides)).

(** ** StochasticOscillator.go:50-77, 88-114 *)
Definition stoch_calc (period : Z) (kl : cs) (data : list (row KD)) :=
  o <- GetOHLC kl ;;
  '(k, d) <- Stochastic (oClose o) (oHigh o) (oLow o) period ;;
  append_rows (time_at kl) (len k) (fun i =>
    a <- get k i ;; b <- get d i ;; Ok (mkKD a b)) data.
Definition I_Stoch := mkIndicator "oscillator.StochasticOscillator" stoch_calc (Some (fun _ => @kd_sides N)).

(** ** VolumeOscillator.go:50-67 *)
Definition vosc_calc (p : FastSlow) (kl : cs) (data : list (row F)) :=
  o <- GetOHLC kl ;;
  volumes <- Nzs (oVolume o) (ofZ 0) ;;
  short <- Ema (fsFast p) volumes ;;
  long <- Ema (fsSlow p) volumes ;;
  d <- Subtract short long ;;
  q <- Divide d long ;;
  oscs <- MultiplyBy q (ofZ 100) ;;
  make_rows fzero (len oscs) (time_at kl) 0 (len oscs) (get oscs).
Definition I_VOsc := mkIndicator "oscillator.VolumeOscillator" vosc_calc None.

(** ** WilliamsR.go *)
(** 57-64 *)
Definition williams (period : Z) (highs lows closing : fl) : res fl :=
  hh <- Max period highs ;;
  ll <- Min period lows ;;
  result <- make fzero (len closing) ;;
  for_ 0 (len closing) (fun i result =>
    h <- get hh i ;; c <- get closing i ;; l <- get ll i ;;
    set result i ((h -~ c) /~ (h -~ l) *~ ofZ (-100))) result.
(** 48-73 *)
Definition williams_calc (period : Z) (kl : cs) (data : list (row F)) :=
  o <- GetOHLC kl ;;
  r <- williams period (oHigh o) (oLow o) (oClose o) ;;
  append_rows (time_at kl) (len r) (get r) data.
(** 78-104 *)
Definition williams_sides (kl : cs) (data : list (row F)) :=
  crossing kl data
    (fun v p => (v <~ ofZ (-80)) && (p >~ ofZ (-80)))
    (fun v p => (v >~ ofZ (-20)) && (p <~ ofZ (-20))).
Definition I_Williams := mkIndicator "oscillator.WilliamsR" williams_calc (Some (fun _ => williams_sides)).
End Osc.
