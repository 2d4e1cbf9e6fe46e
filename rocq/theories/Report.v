(** * Report: the names of the strategies and the demonstration program main.go.

    [fmt] gives the text of a decimal integer ([%d]) as it is; the texts of a
    float64 ([%f], [%.2f]) and of a time (time.Time.Format, which depends on the
    machine's time zone) are parameters.  A strategy of RunStrategies is a fresh
    object, so it is a computation that does not depend on the others; C41 is
    about calling the same object again. *)
From Coq Require Import String Ascii DecimalString Decimal.
From Verif Require Import Base Num Sides Klines IndBase IndTrend IndChannel IndVolume IndOsc.
Set Implicit Arguments.

(** fmt's [%d] *)
Definition dec (z : Z) : string := NilZero.string_of_int (Z.to_int z).
(** [%d-%d-...-%d] *)
Fixpoint dashed (l : list Z) : string :=
  match l with
  | [] => ""%string
  | [z] => dec z
  | z :: l => (dec z ++ "-" ++ dashed l)%string
  end.

Section Report.
Context {N : Num}.
(** fmt's [%f] and [%.2f], and time.Unix(t, 0).Format("2006-01-02 15:04:05") *)
Variable text_f : F -> string.
Variable text_2f : F -> string.
Variable clock : Z -> string.

(** An indicator type with an AnalysisSide method and the Name its constructors
    give (AnalysisSide hands it over unchanged: Name: e.Name). *)
Record Named := mkNamed { nmI : Indicator (N := N); nmName : Param nmI -> string }.
(** trend/Rsi.go:28 *)
Definition nm_Rsi := mkNamed I_Rsi (fun p => ("Rsi" ++ dec p)%string).
(** trend/StochRsi.go:34 *)
Definition nm_StochRsi := mkNamed I_StochRsi (fun p => ("StochRsi" ++ dashed [srK p; srD p; srRsi p; srStoch p])%string).
(** trend/Cci.go:55 *)
Definition nm_Cci := mkNamed I_Cci (fun p => ("CCI" ++ dec (cciPeriod p) ++ "-SMA" ++ dec (cciSma p))%string).
(** trend/AiCoinCCI.go:33 *)
Definition nm_AiCoinCCI := mkNamed I_AiCoinCCI (fun p => ("AiCoinCCI-" ++ dec p)%string).
(** trend/StochasticHeat.go:43 *)
Definition nm_StochasticHeat := mkNamed I_StochasticHeat (fun p => ("StochasticHeat" ++ dashed [hInc p; hFast p; hSlow p; hPlot p; hMA p])%string).
(** channel/DonchianChannel.go:38 *)
Definition nm_Donchian := mkNamed I_Donchian (fun p => ("DonchianChannel" ++ dec p)%string).
(** channel/KeltnerChannel.go:39 *)
Definition nm_Keltner := mkNamed I_Keltner (fun p => ("KeltnerChannel" ++ dec p)%string).
(** channel/Boll.go:68 *)
Definition nm_Boll := mkNamed I_Boll (fun p => ("Boll" ++ dashed [blN p; blK p])%string).
(** volume/MoneyFlowIndex.go:38 *)
Definition nm_MFI := mkNamed I_MFI (fun p => ("MoneyFlowIndex" ++ dec p)%string).
(** oscillator/AbsolutePriceOscillator.go:29 *)
Definition nm_APO := mkNamed I_APO (fun _ => "AbsolutePriceOscillator"%string).
(** oscillator/AwesomeOscillator.go:31 *)
Definition nm_AO := mkNamed I_AO (fun _ => "AwesomeOscillator"%string).
(** oscillator/Camarilla.go:42 *)
Definition nm_Camarilla := mkNamed I_Camarilla (fun p => ("Camarilla-" ++ dec (camEMA p))%string).
(** oscillator/ChaikinOscillator.go:37 *)
Definition nm_Chaikin := mkNamed I_Chaikin (fun p => ("ChaikinOscillator" ++ dashed [fsFast p; fsSlow p])%string).
(** oscillator/IchimokuCloud.go:46 *)
Definition nm_Ichimoku := mkNamed I_Ichimoku (fun p => ("IchimokuCloud" ++ dashed [icConv p; icSpanB p; icLag p])%string).
(** oscillator/PercentagePriceOscillator.go:40 *)
Definition nm_PPO := mkNamed I_PPO (fun p => ("PercentagePriceOscillator" ++ dashed [poFast p; poSlow p; poSignal p])%string).
(** oscillator/ProjectionOscillator.go:35 *)
Definition nm_Projection := mkNamed I_Projection (fun p => ("ProjectionOscillator" ++ dashed [pjPeriod p; pjSmooth p])%string).
(** oscillator/StochasticOscillator.go:37 *)
Definition nm_Stoch := mkNamed I_Stoch (fun p => ("StochasticOscillator" ++ dec p)%string).
(** oscillator/WilliamsR.go:35 *)
Definition nm_Williams := mkNamed I_Williams (fun p => ("WilliamsR" ++ dec p)%string).
(** trend/Macd.go:49 *)
Definition nm_Macd := mkNamed I_Macd (fun p => ("Macd" ++ dashed [mShort p; mSignal p; mLong p])%string).
(** trend/Kdj.go:33 *)
Definition nm_Kdj := mkNamed I_Kdj (fun p => ("Kdj" ++ dec p)%string).
(** trend/SuperTrend.go:38, 50 *)
Definition nm_SuperTrend := mkNamed I_SuperTrend (fun p => ("SuperTrend" ++ dashed [stPeriod p; stMult p])%string).
(** trend/PivotPointSuperTrend.go:38, 50 *)
Definition nm_PPST := mkNamed I_PPST (fun p => ("PivotPointSuperTrend" ++ dec (ppPeriod p) ++ "-" ++ dec (ppAtr p) ++ "-" ++ text_f (ppFactor p))%string).
(** trend/UTBot.go:32, 43 *)
Definition nm_UTBot := mkNamed I_UTBot (fun p => ("UTBot" ++ dec (utPeriod p))%string).
(** trend/TraderXO.go:30, 41 *)
Definition nm_TraderXO := mkNamed I_TraderXO (fun p => ("TraderXO" ++ dashed [xFastP p; xSlowP p])%string).
(** trend/EMAVegas.go:37, 51 *)
Definition nm_EMAVegas := mkNamed I_EMAVegas (fun p => ("EMAVegas" ++ dashed [vgS1 p; vgS2 p; vgL1 p; vgL2 p])%string).
Definition names : list Named :=
  [nm_Rsi; nm_StochRsi; nm_Cci; nm_AiCoinCCI; nm_StochasticHeat; nm_Donchian; nm_Keltner; nm_Boll; nm_MFI; nm_APO; nm_AO; nm_Camarilla; nm_Chaikin; nm_Ichimoku; nm_PPO; nm_Projection; nm_Stoch; nm_Williams; nm_Macd; nm_Kdj; nm_SuperTrend; nm_PPST; nm_UTBot; nm_TraderXO; nm_EMAVegas].

(** A freshly constructed object of a named type, with its parameters. *)
Record Chosen := mkChosen { chD : Named; chP : Param (nmI chD) }.
Definition name_of (c : Chosen) : string := nmName (chD c) (chP c).
Definition sides_at (c : Chosen) (kl : list Candle) : res (list Side) := sides_of (nmI (chD c)) (chP c) kl.
(** AnalysisSide as utils.RunStrategies sees it: Name: e.Name, Data: sides *)
Definition strategy (kl : list Candle) (c : Chosen) : Strategy unit := fun w =>
  s <- sides_at c kl ;; Ok (w, mkSideData (name_of c) s).
Definition run_all (cs : list Chosen) (kl : list Candle) : res (list SideData) :=
  rmap snd (RunStrategies (map (strategy kl) cs) tt).

(** main.go:17-29; the default parameters are those of trend/Macd.go:60, Kdj.go:42,
    oscillator/AbsolutePriceOscillator.go:29, trend/Cci.go:66, Rsi.go:36,
    oscillator/ChaikinOscillator.go:47, IchimokuCloud.go:57,
    PercentagePriceOscillator.go:51, StochasticOscillator.go:46, WilliamsR.go:44 *)
Definition demo : list Chosen :=
  [ @mkChosen nm_Macd (mkMacdP 12 9 26);
    @mkChosen nm_Kdj 9;
    @mkChosen nm_APO (mkFS 14 30);
    @mkChosen nm_Cci (mkCciP 20 20);
    @mkChosen nm_Rsi 14;
    @mkChosen nm_AO tt;
    @mkChosen nm_Chaikin (mkFS 3 10);
    @mkChosen nm_Ichimoku (mkIchiP 20 60 120);
    @mkChosen nm_PPO (mkPPOP 12 26 9);
    @mkChosen nm_Stoch 14;
    @mkChosen nm_Williams 14 ].

(** main.go:57-65: string([]byte{...}) *)
Definition bytes (l : list nat) : string := fold_right (fun b s => String (ascii_of_nat b) s) EmptyString l.
Definition green : string := bytes [27; 91; 51; 50; 109]%nat.
Definition red : string := bytes [27; 91; 51; 49; 109]%nat.
Definition reset : string := bytes [27; 91; 48; 109]%nat.
(** main.go:68-77 *)
Definition getColorSide (s : Side) : string :=
  if s =? Buy then (green ++ side_string s ++ reset)%string
  else if s =? Sell then (red ++ side_string s ++ reset)%string
  else side_string s.
Definition tab_ : string := bytes [9]%nat.
Definition newline : string := bytes [10]%nat.

(** main.go:13-45 on any list of candles in the place of utils.GetTestKlineItem();
    the result is the list of the strings printed, one per Printf. *)
Definition main (kl : list Candle) : res (list string) :=
  strategiesSides <- run_all demo kl ;;
  range_ kl (fun i v printed =>
    messages <- range_ strategiesSides (fun _ sideMessage messages =>
      s <- get (sdData sideMessage) i ;;
      Ok (messages ++ [(sdName sideMessage ++ ":" ++ getColorSide s)%string])) [] ;;
    Ok (printed ++ [("[" ++ dec (i + 1) ++ "]Time:" ++ clock (cTime v) ++ tab_ ++ "Close:" ++ text_2f (cClose v)
      ++ tab_ ++ " " ++ String.concat tab_ messages ++ newline)%string])) [].
End Report.
