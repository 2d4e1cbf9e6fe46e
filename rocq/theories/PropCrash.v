(** * PropCrash: C90, which inputs crash which indicator. *)
From Verif Require Import Base Num Order Lits Containers Ta TaTools SpecTa Sides Klines KlineProofs3 IndBase IndTrend IndChannel IndVolume IndOsc IndAll
  SpecNum B64 PropInd1 CountLaw IndSides Crash CrashInd CrashSides.
Set Implicit Arguments.
Open Scope Z_scope.

(** ** Specification: one line per indicator type, the inputs that crash it.
    [n] is the number of candles.  Nothing is asked of prices, volumes and times:
    NaN and infinities included. *)
Section Spec.
Context {N : Num}.
Record Crash := mkCrash { crI : Indicator (N := N); crWhen : Param crI -> Z -> Prop }.
Definition never I : Crash := mkCrash I (fun _ _ => False).
Definition crash_map : list Crash :=
  [ mkCrash I_Ma (fun p n => p < 0 /\ n > 0);
    mkCrash I_Rsi (fun p n => p >= 2 /\ n = p);
    mkCrash I_StochRsi (fun p n => srRsi p >= 2 /\ n = srRsi p \/ srStoch p < 0 \/ srStoch p = 0 /\ n > 0);
    mkCrash I_Cci (fun p n => cciPeriod p <= 0 \/ cciSma p < 0 /\ n > 0);
    never I_AiCoinCCI;
    mkCrash I_Vortex (fun p n => p < 0 \/ p = 0 /\ n >= 2);
    mkCrash I_StochasticHeat (fun p n => hInc p < 0 \/ hInc p = 0 /\ n > 0 \/
      hMA p = tSMA /\ n > 0 /\ (hFast p < 0 \/ hSlow p < 0) \/
      hMA p = tWMA /\ (n + 1 < hFast p \/ n > 0 /\ (hFast p <= 0 \/ hSlow p <= 0 \/ n + 1 < hSlow p)) \/
      hMA p <> tSMA /\ hMA p <> tEMA /\ hMA p <> tWMA /\ n > 0 /\ (hSlow p <= 0 \/ n + 1 < hSlow p));
    mkCrash I_Donchian (fun p n => p < 0 \/ p = 0 /\ n > 0);
    never I_Keltner;
    mkCrash I_Ulcer (fun p n => p < 0 \/ p = 0 /\ n > 0);
    never I_AD;
    mkCrash I_CMF (fun p n => p < 0 /\ n > 0);
    mkCrash I_EMV (fun p n => p < 0 /\ n > 0);
    never I_Force;
    mkCrash I_MFI (fun p n => p < 0 /\ n > 0);
    never I_NVI;
    never I_Obv;
    mkCrash I_VPT (fun p n => p < 0 \/ n = 0);
    mkCrash I_Vwma (fun p n => p < 0 /\ n > 0);
    never I_AO;
    never I_Chaikin;
    mkCrash I_Ichimoku (fun p n => icConv p < 0 \/ icSpanB p < 0 \/ n > 0 /\ (icConv p = 0 \/ icSpanB p = 0 \/ icLag p < 0));
    never I_PPO;
    mkCrash I_Projection (fun p n => pjPeriod p < 0 \/ pjPeriod p = 0 /\ n > 0);
    mkCrash I_Stoch (fun p n => p < 0 \/ p = 0 /\ n > 0);
    mkCrash I_Williams (fun p n => p < 0 \/ p = 0 /\ n > 0);
    mkCrash I_Sma (fun p n => p < 0 /\ n > 0);
    never I_Ema;
    never I_Dema;
    never I_Macd;
    mkCrash I_Kdj (fun p n => p = 1 /\ n > 0);
    never I_Atr;
    mkCrash I_LRC (fun p n => lrLength p <= 0 \/ n < lrLength p \/ lrSMA p = true /\ lrSmooth p < 0);
    never I_Reversal;
    never I_BreakoutProbability;
    mkCrash I_SuperTrend (fun p n => stPeriod p >= 2 /\ n <= stPeriod p \/ stChange p = false /\ stPeriod p < 0 /\ n > 0);
    mkCrash I_PPST (fun p n => ppPeriod p < 0 \/ ppAtr p >= 2 /\ n <= ppAtr p);
    mkCrash I_UTBot (fun p n => utAtr p >= 2 /\ n <= utAtr p);
    never I_TraderXO;
    never I_EMAVegas;
    mkCrash I_ADX (fun p n => axPeriod p <= 0 \/ axLen p < 0 /\ n > 0);
    mkCrash I_Boll (fun p n => blN p <= 0 /\ n > 0);
    never I_APO;
    never I_Camarilla;
    never I_VOsc;
    never I_Rma ].
(** the parameters of the NewDefault... constructors, and the numbers of candles
    that crash an object built with them *)
Record DefCrash := mkDef { dfI : Indicator (N := N); dfParam : Param dfI; dfWhen : Z -> Prop }.
Definition sound I p : DefCrash := mkDef I p (fun _ => False).
Definition default_map (daily : list Candle) (same : Z -> Z -> bool) : list DefCrash :=
  [ sound I_Ma 20;
    mkDef I_Rsi 14 (fun n => n = 14);
    mkDef I_StochRsi (mkStochRsiP 3 3 14 14) (fun n => n = 14);
    sound I_Cci (mkCciP 20 20);
    sound I_AiCoinCCI 20;
    sound I_Vortex 9;
    mkDef I_StochasticHeat (mkHeatP 8 7 26 25 tWMA) (fun n => n < 25);
    sound I_Donchian 20;
    sound I_Keltner 20;
    sound I_Ulcer 14;
    sound I_AD tt;
    sound I_CMF 20;
    sound I_EMV 14;
    sound I_Force 13;
    sound I_MFI 14;
    sound I_NVI tt;
    mkDef I_VPT 14 (fun n => n = 0);
    sound I_Vwma 5;
    sound I_Chaikin (mkFS 3 10);
    sound I_Ichimoku (mkIchiP 20 60 120);
    sound I_PPO (mkPPOP 12 26 9);
    sound I_Projection (mkProjP 13 3);
    sound I_Stoch 14;
    sound I_Williams 14;
    sound I_Sma 9;
    sound I_Ema 5;
    sound I_Dema 20;
    sound I_Macd (mkMacdP 12 9 26);
    sound I_Kdj 9;
    sound I_Atr 14;
    mkDef I_LRC (mkLrcP 7 11 true) (fun n => n < 11);
    sound I_BreakoutProbability (mkBPP (lit 12 10) 5);
    mkDef I_SuperTrend (mkSTP 10 3 true) (fun n => n <= 10);
    mkDef I_PPST (mkPPP 3 8 (lit 28 10)) (fun n => n <= 8);
    sound I_UTBot (mkUTP 2 1);
    sound I_TraderXO (mkXOP 12 25);
    sound I_EMAVegas (mkVegasP 12 144 169 575 676);
    sound I_ADX (mkAdxP 30 14);
    sound I_Boll (mkBollP 20 2);
    sound I_Camarilla (mkCamP 8 daily same);
    sound I_VOsc (mkFS 5 10);
    sound I_Rma 13 ].
End Spec.

(** ** C90 *)
(** the table has one line for every indicator type, in the order of the catalogue *)
Theorem C90_complete (N : Num) : map (crI (N := N)) crash_map = all_indicators.
Proof. reflexivity. Qed.
Print Assumptions C90_complete.

Ltac lines H := unfold crash_map in H; cbn [In] in H; repeat (destruct H as [<-|H]); try (destruct H).
Lemma heat_iff (hMA hFast hSlow hInc n : Z) : 0 <= n ->
  (hInc < 0 \/ hInc = 0 /\ 0 < n \/ ma_bad hMA hFast n \/
   0 < n /\ (hMA = tSMA /\ hSlow < 0 \/ hMA <> tSMA /\ hMA <> tEMA /\ (n + 1 < hSlow \/ hSlow <= 0))) <->
  (hInc < 0 \/ hInc = 0 /\ n > 0 \/
      hMA = tSMA /\ n > 0 /\ (hFast < 0 \/ hSlow < 0) \/
      hMA = tWMA /\ (n + 1 < hFast \/ n > 0 /\ (hFast <= 0 \/ hSlow <= 0 \/ n + 1 < hSlow)) \/
      hMA <> tSMA /\ hMA <> tEMA /\ hMA <> tWMA /\ n > 0 /\ (hSlow <= 0 \/ n + 1 < hSlow)).
Proof.
  intros Hn. unfold ma_bad, tSMA, tEMA, tWMA. rewrite Z.gt_lt_iff.
  destruct (Z.eq_dec hMA 2), (Z.eq_dec hMA 4), (Z.eq_dec hMA 8); try lia.
Qed.
Theorem C90_rows (N : Num) (e : Crash (N := N)) (p : Param (crI e)) (kl : list Candle) :
  In e crash_map -> counts (crI e) (length kl) ->
  (rows_of (crI e) p kl = Panic <-> crWhen e p (len kl)).
Proof.
  intros H Hc. pose proof (len_nonneg kl) as Hn.
  lines H; cbn [crI crWhen never] in *; cbn [Param] in p.
  - rewrite (runs_iff (x_Ma kl p)). cbn; lia.
  - rewrite (runs_iff (x_Rsi kl p)). cbn; lia.
  - rewrite (runs_iff (x_StochRsi kl p)). cbn; lia.
  - rewrite (runs_iff (x_Cci kl p)). cbn; lia.
  - rewrite (runs_iff (x_AiCoinCCI kl p)). reflexivity.
  - rewrite (runs_iff (x_Vortex kl p)). cbn; lia.
  - rewrite (runs_iff (x_Heat kl p)). exact (heat_iff (hMA p) (hFast p) (hSlow p) (hInc p) Hn).
  - rewrite (runs_iff (x_Donchian kl p)). cbn; lia.
  - rewrite (runs_iff (x_Keltner kl p)). reflexivity.
  - rewrite (runs_iff (x_Ulcer kl p)). cbn; lia.
  - rewrite (runs_iff (x_AD kl p)). reflexivity.
  - rewrite (runs_iff (x_CMF kl p)). cbn; lia.
  - rewrite (runs_iff (x_EMV kl p)). cbn; lia.
  - rewrite (runs_iff (x_Force kl p)). reflexivity.
  - rewrite (runs_iff (x_MFI kl p)). cbn; lia.
  - rewrite (runs_iff (x_NVI kl p)). reflexivity.
  - rewrite (runs_iff (x_Obv kl p)). reflexivity.
  - rewrite (runs_iff (x_VPT kl p)). cbn; lia.
  - rewrite (runs_iff (x_Vwma kl p)). cbn; lia.
  - rewrite (runs_iff (x_AO kl p)). reflexivity.
  - rewrite (runs_iff (x_Chaikin kl p)). reflexivity.
  - rewrite (runs_iff (x_Ichimoku kl p)). cbn; lia.
  - rewrite (runs_iff (x_PPO kl p)). reflexivity.
  - destruct (Hc eq_refl) as [HC HN]. rewrite (runs_iff (x_Projection kl p HC HN)). cbn; lia.
  - rewrite (runs_iff (x_Stoch kl p)). cbn; lia.
  - rewrite (runs_iff (x_Williams kl p)). cbn; lia.
  - rewrite (runs_iff (x_Sma kl p)). cbn; lia.
  - rewrite (runs_iff (x_Ema kl p)). reflexivity.
  - rewrite (runs_iff (x_Dema kl p)). reflexivity.
  - rewrite (runs_iff (x_Macd kl p)). reflexivity.
  - rewrite (runs_iff (x_Kdj kl p)). cbn; lia.
  - rewrite (runs_iff (x_Atr kl p)). reflexivity.
  - rewrite (runs_iff (x_LRC kl p)). reflexivity.
  - rewrite (runs_iff (x_Reversal kl p)). reflexivity.
  - rewrite (runs_iff (x_Breakout kl p)). reflexivity.
  - rewrite (runs_iff (x_SuperTrend kl p)). cbn. destruct (stChange p); intuition (lia || discriminate).
  - rewrite (runs_iff (x_PPST kl p)). cbn; lia.
  - rewrite (runs_iff (x_UTBot kl p)). cbn; lia.
  - rewrite (runs_iff (x_TraderXO kl p)). reflexivity.
  - rewrite (runs_iff (x_EMAVegas kl p)). reflexivity.
  - rewrite (runs_iff (x_ADX kl p)). cbn; lia.
  - rewrite (runs_iff (x_Boll kl p)). cbn; lia.
  - rewrite (runs_iff (x_APO kl p)). reflexivity.
  - rewrite (runs_iff (x_Camarilla kl p)). reflexivity.
  - rewrite (runs_iff (x_VOsc kl p)). reflexivity.
  - rewrite (runs_iff (x_Rma kl p)). reflexivity.
Qed.
Print Assumptions C90_rows.
(** Go's float64: every input up to 2^53 candles *)
Theorem C90_float64 (L : MathLib) (e : Crash (N := B64 L)) (p : Param (crI e)) (kl : list Candle) :
  In e crash_map -> len kl <= 2 ^ 53 -> (rows_of (crI e) p kl = Panic <-> crWhen e p (len kl)).
Proof. intros He Hn. apply C90_rows; [exact He|]. intros _. exact (conj (B64_count L) Hn). Qed.
Print Assumptions C90_float64.
(** asking for the sides crashes on the same inputs, and on no others *)
Theorem C90_sides (N : Num) (e : Crash (N := N)) (p : Param (crI e)) (kl : list Candle) :
  In e crash_map -> counts (crI e) (length kl) -> Sides (crI e) <> None ->
  (sides_of (crI e) p kl = Panic <-> crWhen e p (len kl)).
Proof.
  intros He Hc Hs. rewrite <- (@C90_rows N e p kl He Hc).
  assert (HI : In (crI e) all_indicators) by (rewrite <- C90_complete; now apply in_map).
  destruct (Sides (crI e)) as [f|] eqn:E; [clear Hs|contradiction]. apply (sides_iff HI p kl E). intros d Hd.
  apply (@C40_rows_partial N (crI e) p kl d); [|exact Hc|exact Hd].
  unfold all_indicators in HI. apply in_app_or in HI as [HI|HI]; [now left|]. apply in_app_or in HI as [HI|HI]; [now right|].
  destruct HI as [HI|[]]. exfalso. assert (X : Sides (crI e) <> None) by congruence. apply X. now rewrite <- HI.
Qed.
Print Assumptions C90_sides.
(** the default objects *)
Theorem C90_defaults (N : Num) (daily : list Candle) (same : Z -> Z -> bool) (d : DefCrash (N := N)) (kl : list Candle) :
  In d (default_map daily same) -> counts (dfI d) (length kl) ->
  (rows_of (dfI d) (dfParam d) kl = Panic <-> dfWhen d (len kl)).
Proof.
  intros Hd Hc. pose proof (len_nonneg kl) as Hn. unfold default_map in Hd. cbn [In] in Hd.
  repeat (destruct Hd as [<-|Hd]); try (destruct Hd); cbn [dfI dfParam dfWhen sound] in *.
  - rewrite (runs_iff (x_Ma kl 20)). lia.
  - rewrite (runs_iff (x_Rsi kl 14)). lia.
  - rewrite (runs_iff (x_StochRsi kl _)). cbn; lia.
  - rewrite (runs_iff (x_Cci kl _)). cbn; lia.
  - rewrite (runs_iff (x_AiCoinCCI kl _)). reflexivity.
  - rewrite (runs_iff (x_Vortex kl _)). lia.
  - rewrite (runs_iff (x_Heat kl _)). unfold ma_bad, tSMA, tEMA, tWMA. cbn [hInc hFast hSlow hPlot hMA]. lia.
  - rewrite (runs_iff (x_Donchian kl _)). lia.
  - rewrite (runs_iff (x_Keltner kl _)). reflexivity.
  - rewrite (runs_iff (x_Ulcer kl _)). lia.
  - rewrite (runs_iff (x_AD kl _)). reflexivity.
  - rewrite (runs_iff (x_CMF kl _)). lia.
  - rewrite (runs_iff (x_EMV kl _)). lia.
  - rewrite (runs_iff (x_Force kl _)). reflexivity.
  - rewrite (runs_iff (x_MFI kl _)). lia.
  - rewrite (runs_iff (x_NVI kl _)). reflexivity.
  - rewrite (runs_iff (x_VPT kl _)). lia.
  - rewrite (runs_iff (x_Vwma kl _)). lia.
  - rewrite (runs_iff (x_Chaikin kl _)). reflexivity.
  - rewrite (runs_iff (x_Ichimoku kl _)). cbn; lia.
  - rewrite (runs_iff (x_PPO kl _)). reflexivity.
  - destruct (Hc eq_refl) as [HC HN]. rewrite (runs_iff (x_Projection kl _ HC HN)). cbn; lia.
  - rewrite (runs_iff (x_Stoch kl _)). lia.
  - rewrite (runs_iff (x_Williams kl _)). lia.
  - rewrite (runs_iff (x_Sma kl _)). lia.
  - rewrite (runs_iff (x_Ema kl _)). reflexivity.
  - rewrite (runs_iff (x_Dema kl _)). reflexivity.
  - rewrite (runs_iff (x_Macd kl _)). reflexivity.
  - rewrite (runs_iff (x_Kdj kl _)). lia.
  - rewrite (runs_iff (x_Atr kl _)). reflexivity.
  - rewrite (runs_iff (x_LRC kl _)). cbn. intuition lia.
  - rewrite (runs_iff (x_Breakout kl _)). reflexivity.
  - rewrite (runs_iff (x_SuperTrend kl _)). cbn. intuition (lia || discriminate).
  - rewrite (runs_iff (x_PPST kl _)). cbn; lia.
  - rewrite (runs_iff (x_UTBot kl _)). cbn; lia.
  - rewrite (runs_iff (x_TraderXO kl _)). reflexivity.
  - rewrite (runs_iff (x_EMAVegas kl _)). reflexivity.
  - rewrite (runs_iff (x_ADX kl _)). cbn; lia.
  - rewrite (runs_iff (x_Boll kl _)). cbn; lia.
  - rewrite (runs_iff (x_Camarilla kl _)). reflexivity.
  - rewrite (runs_iff (x_VOsc kl _)). reflexivity.
  - rewrite (runs_iff (x_Rma kl _)). reflexivity.
Qed.
Print Assumptions C90_defaults.

Definition crashed {A} (r : res A) : bool := match r with Panic => true | Ok _ => false end.
(** NewDefaultRsi on 13, 14 and 15 candles; a short SuperTrend; StochasticHeat *)
Example C90_hyp :
  map (fun n => crashed (rows_of I_Rsi 14 (flat (repeat 5 n)))) [13; 14; 15]%nat = [false; true; false] /\
  map (fun n => crashed (sides_of I_SuperTrend (mkSTP 2 3 true) (flat (repeat 5 n)))) [1; 2; 3]%nat = [true; true; false] /\
  map (fun n => crashed (rows_of I_VPT 14 (flat (repeat 5 n)))) [0; 1]%nat = [true; false] /\
  map (fun n => crashed (rows_of I_Kdj 1 (flat (repeat 5 n)))) [0; 1]%nat = [false; true].
Proof. repeat split; vm_compute; reflexivity. Qed.
