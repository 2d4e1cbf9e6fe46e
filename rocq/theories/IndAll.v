(** * IndAll: the catalogue of the modelled indicator types. *)
From Verif Require Import Base Num Sides Klines IndBase IndTrend IndChannel IndVolume IndOsc.
Set Implicit Arguments.

Section All.
Context {N : Num}.

(** Calculation does [e.data = append(e.data, ...)]. *)
Definition append_style : list Indicator :=
  [I_Ma; I_Rsi; I_StochRsi; I_Cci; I_AiCoinCCI; I_Vortex; I_StochasticHeat;
   I_Donchian; I_Keltner; I_Ulcer;
   I_AD; I_CMF; I_EMV; I_Force; I_MFI; I_NVI; I_Obv; I_VPT; I_Vwma;
   I_AO; I_Chaikin; I_Ichimoku; I_PPO; I_Projection; I_Stoch; I_Williams].
(** Calculation replaces e.data, by one row per candle. *)
Definition make_style : list Indicator :=
  [I_Sma; I_Ema; I_Dema; I_Macd; I_Kdj; I_Atr; I_LRC; I_Reversal;
   I_BreakoutProbability; I_SuperTrend; I_PPST; I_UTBot; I_TraderXO; I_EMAVegas; I_ADX;
   I_Boll;
   I_APO; I_Camarilla; I_VOsc].
(** All of trend/, channel/, volume/, oscillator/ but SmartMoneyConcepts. *)
Definition all_indicators : list Indicator := append_style ++ make_style ++ [I_Rma].
End All.
