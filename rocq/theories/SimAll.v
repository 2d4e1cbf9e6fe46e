(** * SimAll: every indicator of the catalogue respects every relation of Sim.v
    (the ones that compare prices with absolute constants only where dimensions may
    be mixed). *)
From Verif Require Import Base Num Containers Ta Regression Sides Klines IndBase IndTrend IndChannel IndVolume IndOsc Sim SimTa SimInd.
Set Implicit Arguments.
Unset Strict Implicit.

Section SimAll.
Context {N1 N2 : Num} {SM : Sim N1 N2}.
Local Notation F1 := (@F N1).
Local Notation F2 := (@F N2).
Variables (kl : list (@Candle N1)) (kl' : list (@Candle N2)).
Hypothesis K : Forall2 CR kl kl'.
Local Notation rows i j := (Forall2 (rowR (fr i j))).

(** ** One number per row *)
Lemma Ma_s p : uses [fClose] -> RR (rows 1 0) (rows_of (@I_Ma N1) p kl) (rows_of (@I_Ma N2) p kl').
Proof. intros U. cbn. unfold ma_calc. ohlc. go. app. Qed.
Lemma Sma_i p : uses [fClose] -> RR (rows 1 0) (rows_of (@I_Sma N1) p kl) (rows_of (@I_Sma N2) p kl').
Proof. intros U. cbn. unfold sma_calc. ohlc. go. mkr. Qed.
Lemma Ema_i p : uses [fClose] -> RR (rows 1 0) (rows_of (@I_Ema N1) p kl) (rows_of (@I_Ema N2) p kl').
Proof. intros U. cbn. unfold ema_calc. ohlc. go. mkr. Qed.
Lemma Dema_i p : uses [fClose] -> RR (rows 1 0) (rows_of (@I_Dema N1) p kl) (rows_of (@I_Dema N2) p kl').
Proof. intros U. cbn. unfold dema_calc. ohlc. go. mkr. Qed.
Lemma Rma_i p : uses [fClose] -> RR (rows 1 0) (rows_of (@I_Rma N1) p kl) (rows_of (@I_Rma N2) p kl').
Proof.
  intros U. cbn. unfold rma_calc. ohlc. go.
  eapply rr_bind; [eapply (@rr_make _ _ (rowR (fr 1 0))); [split; [apply trel_zero|apply fr_fzero]|ls]|intros].
  app. assumption.
Qed.
Lemma Cci_s p : uses [fHigh; fLow; fClose] -> RR (rows 0 0) (rows_of (@I_Cci N1) p kl) (rows_of (@I_Cci N2) p kl').
Proof. intros U. cbn. unfold cci_calc. go. app. Qed.
Lemma AiCoin_s p : uses [fClose] -> RR (rows 0 0) (rows_of (@I_AiCoinCCI N1) p kl) (rows_of (@I_AiCoinCCI N2) p kl').
Proof. intros U. cbn. unfold aicoin_calc. ohlc. go. app. Qed.
Lemma Ulcer_s p : uses [fClose] -> RR (rows 0 0) (rows_of (@I_Ulcer N1) p kl) (rows_of (@I_Ulcer N2) p kl').
Proof. intros U. cbn. unfold ulcer_calc. ohlc. go. eapply rr_bind; [eapply (@Sqrt_s _ _ _ 0 0); [eassumption|reflexivity|reflexivity]|intros]. app. Qed.
Lemma CMF_s p : uses [fHigh; fLow; fClose; fVolume] -> RR (rows 0 0) (rows_of (@I_CMF N1) p kl) (rows_of (@I_CMF N2) p kl').
Proof. intros U. cbn. unfold cmf_calc. ohlc. go. app. Qed.
Lemma EMV_s p : uses [fHigh; fLow; fVolume] -> RR (rows 2 (-1)) (rows_of (@I_EMV N1) p kl) (rows_of (@I_EMV N2) p kl').
Proof. intros U. cbn. unfold emv_calc. ohlc. go. app. Qed.
Lemma Force_s p : uses [fClose; fVolume] -> RR (rows 1 1) (rows_of (@I_Force N1) p kl) (rows_of (@I_Force N2) p kl').
Proof. intros U. cbn. unfold force_calc. ohlc. go. app. Qed.
Lemma MFI_s p : uses [fHigh; fLow; fClose; fVolume] -> RR (rows 0 0) (rows_of (@I_MFI N1) p kl) (rows_of (@I_MFI N2) p kl').
Proof.
  intros U. cbn. unfold mfi_calc. ohlc.
  mid (frs 1 0); [unfold mfi_typical; go; loop (frs 1 0)|]. app.
Qed.
Lemma NVI_s p : uses [fClose; fVolume] -> RR (rows 0 0) (rows_of (@I_NVI N1) p kl) (rows_of (@I_NVI N2) p kl').
Proof.
  intros U. cbn. unfold nvi_calc. ohlc. mid (frs 0 0); [unfold nvi; go; loop (frs 0 0)|]. app.
Qed.
Lemma VPT_s p : uses [fClose; fVolume] -> RR (rows 0 1) (rows_of (@I_VPT N1) p kl) (rows_of (@I_VPT N2) p kl').
Proof.
  intros U. cbn. unfold vpt_calc. ohlc. go. eapply rr_bind; [eapply ShiftFill_s; eassumption|intros]. go.
  match goal with H : frs _ _ ?a ?b |- RR _ (bind (Sum (len ?a) _) _) _ => rewrite (frs_len H) end. go. app.
Qed.
Lemma Vwma_s p : uses [fClose; fVolume] -> RR (rows 1 0) (rows_of (@I_Vwma N1) p kl) (rows_of (@I_Vwma N2) p kl').
Proof. intros U. cbn. unfold vwma_calc. ohlc. go. app. Qed.
Lemma AD_s p : uses [fHigh; fLow; fClose; fVolume] -> RR (rows 0 1) (rows_of (@I_AD N1) p kl) (rows_of (@I_AD N2) p kl').
Proof.
  intros U. cbn. unfold ad_calc. ohlc.
  eapply rr_bind; [eapply (@rr_makef _ _ _ 0 1); ls|intros].
  eapply rr_bind with (P := PR (frs 0 1) (rows 0 1)); [|intros ? ? ?; open_pairs; go].
  eapply (rr_for (PR (frs 0 1) (rows 0 1))); [ls|ls|vs|]. intros ? ? ? ?; open_pairs.
  mid (frs 0 1).
  match goal with |- RR _ (bind (set _ _ (if isNaN ?v then _ else _)) _) (bind (set _ _ (if isNaN ?v' then _ else _)) _) =>
    assert (fr 0 1 v v') by (unfold ad_val; fs) end.
  go.
Qed.
Lemma Obv_s p : uses [fClose; fVolume] -> RR (rows 0 1) (rows_of (@I_Obv N1) p kl) (rows_of (@I_Obv N2) p kl').
Proof.
  intros U. cbn. unfold obv_calc. ohlc. eapply (rr_for (rows 0 1)); [ls|ls|constructor|]. intros i d d' Hd.
  mid (fr 0 1).
Qed.

(** ** Rows with several numbers *)
Definition kdR (v : @KD N1) (v' : @KD N2) : Prop := fr 0 0 (kdK v) (kdK v') /\ fr 0 0 (kdD v) (kdD v').
Definition macdR (v : @MacdV N1) (v' : @MacdV N2) : Prop :=
  fr 1 0 (mDIF v) (mDIF v') /\ fr 1 0 (mDEA v) (mDEA v') /\ fr 1 0 (mMacd v) (mMacd v').
Definition kdjR (v : @KdjV N1) (v' : @KdjV N2) : Prop :=
  fr 0 0 (kRSV v) (kRSV v') /\ fr 0 0 (kK v) (kK v') /\ fr 0 0 (kD v) (kD v') /\ fr 0 0 (kJ v) (kJ v').
Definition atrR (v : @AtrV N1) (v' : @AtrV N2) : Prop := fr 1 0 (aTR v) (aTR v') /\ fr 1 0 (aAtr v) (aAtr v').
Definition vortexR (v : @VortexV N1) (v' : @VortexV N2) : Prop := fr 0 0 (vPlus v) (vPlus v') /\ fr 0 0 (vMinus v) (vMinus v').
Definition heatR (v : @HeatV N1) (v' : @HeatV N2) : Prop := fr 0 0 (hvFast v) (hvFast v') /\ fr 0 0 (hvSlow v) (hvSlow v').
Definition stR (v : @STV N1) (v' : @STV N2) : Prop :=
  fr 1 0 (sUp v) (sUp v') /\ fr 1 0 (sUpBegin v) (sUpBegin v') /\ fr 1 0 (sDn v) (sDn v') /\ fr 1 0 (sDnBegin v) (sDnBegin v').
Definition utR (v : @UTV N1) (v' : @UTV N2) : Prop := fr 1 0 (uClose v) (uClose v') /\ fr 1 0 (uValue v) (uValue v').
Definition xoR (v : @XOV N1) (v' : @XOV N2) : Prop := fr 1 0 (xFast v) (xFast v') /\ fr 1 0 (xSlow v) (xSlow v').
Definition vegasR (v : @VegasV N1) (v' : @VegasV N2) : Prop :=
  fr 1 0 (gV v) (gV v') /\ fr 1 0 (gS1 v) (gS1 v') /\ fr 1 0 (gS2 v) (gS2 v') /\ fr 1 0 (gL1 v) (gL1 v') /\ fr 1 0 (gL2 v) (gL2 v').
Definition adxR (v : @AdxV N1) (v' : @AdxV N2) : Prop :=
  fr 0 0 (axPlus v) (axPlus v') /\ fr 0 0 (axMinus v) (axMinus v') /\ fr 0 0 (axADX v) (axADX v').
Definition lrcR (v : @LrcV N1) (v' : @LrcV N2) : Prop :=
  fr 1 0 (lcOpen v) (lcOpen v') /\ fr 1 0 (lcClose v) (lcClose v') /\ fr 1 0 (lcHigh v) (lcHigh v') /\
  fr 1 0 (lcLow v) (lcLow v') /\ fr 1 0 (lcSignal v) (lcSignal v').
Definition bandR (v : @Band N1) (v' : @Band N2) : Prop :=
  fr 1 0 (bUpper v) (bUpper v') /\ fr 1 0 (bMiddle v) (bMiddle v') /\ fr 1 0 (bLower v) (bLower v').
Definition bollR (v : @BollV N1) (v' : @BollV N2) : Prop :=
  fr 1 0 (blUpper v) (blUpper v') /\ fr 1 0 (blMiddle v) (blMiddle v') /\ fr 1 0 (blLower v) (blLower v') /\ fr 1 0 (blMD v) (blMD v').
Definition camR (v : @CamV N1) (v' : @CamV N2) : Prop :=
  fr 1 0 (caEMA v) (caEMA v') /\ fr 1 0 (caPivot v) (caPivot v') /\
  fr 1 0 (caH1 v) (caH1 v') /\ fr 1 0 (caH2 v) (caH2 v') /\ fr 1 0 (caH3 v) (caH3 v') /\ fr 1 0 (caH4 v) (caH4 v') /\
  fr 1 0 (caH5 v) (caH5 v') /\ fr 1 0 (caH6 v) (caH6 v') /\ fr 1 0 (caL1 v) (caL1 v') /\ fr 1 0 (caL2 v) (caL2 v') /\
  fr 1 0 (caL3 v) (caL3 v') /\ fr 1 0 (caL4 v) (caL4 v') /\ fr 1 0 (caL5 v) (caL5 v') /\ fr 1 0 (caL6 v) (caL6 v').
Definition chaikinR (v : @ChaikinV N1) (v' : @ChaikinV N2) : Prop := fr 0 1 (coValue v) (coValue v') /\ fr 0 1 (coAD v) (coAD v').
Definition ichiR (v : @IchiV N1) (v' : @IchiV N2) : Prop :=
  fr 1 0 (iConv v) (iConv v') /\ fr 1 0 (iBase v) (iBase v') /\ fr 1 0 (iSpanA v) (iSpanA v') /\
  fr 1 0 (iSpanB v) (iSpanB v') /\ fr 1 0 (iLag v) (iLag v').
Definition ppoR (v : @PPOV N1) (v' : @PPOV N2) : Prop :=
  fr 0 0 (ppoV v) (ppoV v') /\ fr 0 0 (ppoSignal v) (ppoSignal v') /\ fr 0 0 (ppoHist v) (ppoHist v').
Definition projR (v : @ProjV N1) (v' : @ProjV N2) : Prop := fr 0 0 (pjPo v) (pjPo v') /\ fr 0 0 (pjSpo v) (pjSpo v').

Ltac fields := repeat split; cbn; fs.
Ltac okf := apply rr_ok; fields.

Lemma Macd_s p : uses [fClose] -> RR (Forall2 (rowR macdR)) (rows_of (@I_Macd N1) p kl) (rows_of (@I_Macd N2) p kl').
Proof. intros U. cbn. unfold macd_calc. ohlc. go. mkr; [fields|okf]. Qed.
Lemma Atr_tr_s h l c h' l' c' : frs 1 0 h h' -> frs 1 0 l l' -> frs 1 0 c c' -> RR (frs 1 0) (@atr_tr N1 kl h l c) (@atr_tr N2 kl' h' l' c').
Proof. intros. unfold atr_tr. go. loop (frs 1 0). mid (fr 1 0). Qed.
Hint Resolve Atr_tr_s : sim.
Lemma Atr_i p : uses [fHigh; fLow; fClose] -> RR (Forall2 (rowR atrR)) (rows_of (@I_Atr N1) p kl) (rows_of (@I_Atr N2) p kl').
Proof. intros U. cbn. unfold atr_calc. ohlc. go. mkr; [fields|okf]. Qed.
Lemma vortex_s p h l c h' l' c' : frs 1 0 h h' -> frs 1 0 l l' -> frs 1 0 c c' ->
  RR (Forall2 vortexR) (@vortex N1 p h l c) (@vortex N2 p h' l' c').
Proof.
  intros. unfold vortex. eapply rr_bind; [eapply (@rr_make _ _ vortexR); [fields|ls]|intros]. go.
  bloop (PR (PR (PR (PR (PR (PR (fr 1 0) (fr 1 0)) (fr 1 0)) (frs 1 0)) (frs 1 0)) (frs 1 0)) (Forall2 vortexR)).
  eapply rr_bind; [eapply rr_set; [eassumption|ls|fields]|intros]. go.
Qed.
Lemma Vortex_i p : uses [fHigh; fLow; fClose] -> RR (Forall2 (rowR vortexR)) (rows_of (@I_Vortex N1) p kl) (rows_of (@I_Vortex N2) p kl').
Proof. intros U. cbn. unfold vortex_calc. ohlc. eapply rr_bind; [eapply vortex_s; eassumption|intros]. app. Qed.
Lemma getStoch_s p c h l c' h' l' i : frs 1 0 c c' -> frs 1 0 h h' -> frs 1 0 l l' ->
  RR (frs 0 0) (@getStoch N1 p c h l i) (@getStoch N2 p c' h' l' i).
Proof. intros. unfold getStoch. go. Qed.
Lemma heat_slow_s p f f' : frs 0 0 f f' -> RR (frs 0 0) (@heat_slow N1 p f) (@heat_slow N2 p f').
Proof. intros. unfold heat_slow. go. Qed.
Lemma heat_lines_s p c h l c' h' l' : frs 1 0 c c' -> frs 1 0 h h' -> frs 1 0 l l' ->
  RR (Forall2 (frs 0 0)) (@heat_lines N1 p c h l) (@heat_lines N2 p c' h' l').
Proof.
  intros. unfold heat_lines. eapply (rr_for (Forall2 (frs 0 0))); [ls|ls|constructor|]. intros i s s' Hs.
  eapply rr_bind; [eapply getStoch_s; eassumption|intros]. apply rr_ok. now apply f2_snoc.
Qed.
Lemma heat_sum_s ln ln' i : Forall2 (frs 0 0) ln ln' -> RR (fr 0 0) (@heat_sum N1 ln i) (@heat_sum N2 ln' i).
Proof.
  intros H. unfold heat_sum. destruct H; [cbn; fs|]. go. eapply (@rr_range _ _ _ _ (frs 0 0) (fr 0 0)); [eassumption|assumption|].
  intros. go.
Qed.
Lemma heat_s p n c h l c' h' l' : frs 1 0 c c' -> frs 1 0 h h' -> frs 1 0 l l' ->
  RR (PR (frs 0 0) (frs 0 0)) (@heat N1 p n c h l) (@heat N2 p n c' h' l').
Proof.
  intros. unfold heat. eapply rr_bind; [eapply heat_lines_s; eassumption|intros]. go.
  loop (PR (frs 0 0) (frs 0 0)). eapply rr_bind; [eapply heat_sum_s; eassumption|intros]. go.
  eapply rr_bind; [eapply heat_slow_s; eassumption|intros]. go.
Qed.
Lemma Heat_i p : uses [fHigh; fLow; fClose] -> RR (Forall2 (rowR heatR)) (rows_of (@I_StochasticHeat N1) p kl) (rows_of (@I_StochasticHeat N2) p kl').
Proof.
  intros U. cbn. unfold heat_calc. ohlc. rewrite (f2_len K). eapply rr_bind; [eapply heat_s; eassumption|intros ? ? ?; open_pairs].
  app. okf.
Qed.
Lemma TraderXO_i p : uses [fClose] -> RR (Forall2 (rowR xoR)) (rows_of (@I_TraderXO N1) p kl) (rows_of (@I_TraderXO N2) p kl').
Proof. intros U. cbn. unfold traderxo_calc. ohlc. go. mkr; [fields|okf]. Qed.
Lemma Vegas_i p : uses [fClose] -> RR (Forall2 (rowR vegasR)) (rows_of (@I_EMAVegas N1) p kl) (rows_of (@I_EMAVegas N2) p kl').
Proof. intros U. cbn. unfold vegas_calc. ohlc. go. mkr; [fields|okf]. Qed.
Lemma LRC_i p : uses [fOpen; fHigh; fLow; fClose] -> RR (Forall2 (rowR lrcR)) (rows_of (@I_LRC N1) p kl) (rows_of (@I_LRC N2) p kl').
Proof. intros U. cbn. unfold lrc_calc. ohlc. go. mid (frs 1 0). mkr; [fields|okf]. Qed.
Lemma adx_dm_s h l c h' l' c' : frs 1 0 h h' -> frs 1 0 l l' -> frs 1 0 c c' ->
  RR (PR (PR (frs 1 0) (frs 1 0)) (frs 1 0)) (@adx_dm N1 h l c) (@adx_dm N2 h' l' c').
Proof.
  intros. unfold adx_dm. go. loop (PR (PR (frs 1 0) (frs 1 0)) (frs 1 0)).
  unfold calculateTR, calculateDM. go.
Qed.
Lemma smooth_s xs ys p : frs 1 0 xs ys -> RR (frs 1 0) (@smoothValues N1 xs p) (@smoothValues N2 ys p).
Proof. intros. unfold smoothValues. go. loop (frs 1 0). Qed.
Lemma adx_lines_s p n a b c a' b' c' : frs 1 0 a a' -> frs 1 0 b b' -> frs 1 0 c c' ->
  RR (PR (PR (frs 0 0) (frs 0 0)) (frs 0 0)) (@adx_lines N1 p n a b c) (@adx_lines N2 p n a' b' c').
Proof. intros. unfold adx_lines. go. loop (PR (PR (frs 0 0) (frs 0 0)) (frs 0 0)). unfold adx_di. go. Qed.
Lemma ADX_i p : uses [fHigh; fLow; fClose] -> RR (Forall2 (rowR adxR)) (rows_of (@I_ADX N1) p kl) (rows_of (@I_ADX N2) p kl').
Proof.
  intros U. cbn. unfold adx_calc. ohlc. eapply rr_bind; [eapply adx_dm_s; eassumption|intros ? ? ?; open_pairs].
  do 3 (eapply rr_bind; [eapply smooth_s; eassumption|intros]).
  rewrite (frs_len or_c). eapply rr_bind; [eapply adx_lines_s; eassumption|intros ? ? ?; open_pairs]. go. mkr; [fields|okf].
Qed.
Lemma UTBot_i p : uses [fHigh; fLow; fClose] -> RR (Forall2 (rowR utR)) (rows_of (@I_UTBot N1) p kl) (rows_of (@I_UTBot N2) p kl').
Proof.
  intros U. cbn. unfold utbot_calc. ohlc. mid (frs 1 0).
  - unfold utbot. go. unfold scan_rows. loop (frs 1 0). mid (fr 1 0).
    unfold ut_step. fs.
  - mkr; [fields|okf].
Qed.
Lemma Donchian_i p : uses [fClose] -> RR (Forall2 (rowR bandR)) (rows_of (@I_Donchian N1) p kl) (rows_of (@I_Donchian N2) p kl').
Proof. intros U. cbn. unfold donchian_calc. ohlc. go. app. okf. Qed.
Lemma Keltner_i p : uses [fHigh; fLow; fClose] -> RR (Forall2 (rowR bandR)) (rows_of (@I_Keltner N1) p kl) (rows_of (@I_Keltner N2) p kl').
Proof.
  intros U. change (RR (Forall2 (rowR bandR)) (keltner_calc p kl []) (keltner_calc p kl' [])). unfold keltner_calc.
  eapply rr_bind; [eapply Atr_i; us|intros].
  eapply rr_bind; [eapply (@values_app_s _ _ _ _ _ atrR 1 0); [now intros ? ? []|eassumption]|intros]. go.
  eapply rr_bind; [eapply Ema_i; us|intros].
  eapply rr_bind; [eapply (@values_s _ _ _ _ _ (fr 1 0) 1 0); [auto|eassumption]|intros]. go. app. okf.
Qed.
Lemma boll_md_s p m m' : uses [fClose] -> frs 1 0 m m' -> RR (frs 1 0) (@boll_md N1 p kl m) (@boll_md N2 p kl' m').
Proof.
  intros U. intros H. unfold boll_md. go. eapply rr_bind with (P := PR (fr 2 0) (frs 1 0)); [|intros ? ? ?; open_pairs; go].
  eapply (@rr_range _ _ _ _ CR (PR (fr 2 0) (frs 1 0))); [exact K|vs|].
  intros i k k' s s' [] ?; fld; open_pairs. go.
  match goal with H : CR _ _ |- _ => destruct H end; fld. vs.
Qed.
Lemma Boll_i p : uses [fClose] -> RR (Forall2 (rowR bollR)) (rows_of (@I_Boll N1) p kl) (rows_of (@I_Boll N2) p kl').
Proof.
  intros U. change (RR (Forall2 (rowR bollR)) (boll_calc p kl []) (boll_calc p kl' [])). unfold boll_calc.
  eapply rr_bind; [eapply Sma_i; us|intros].
  eapply rr_bind; [eapply (@values_s _ _ _ _ _ (fr 1 0) 1 0); [auto|eassumption]|intros].
  eapply rr_bind; [eapply boll_md_s; [us|eassumption]|intros]. go. mkr; [fields|okf].
Qed.
Lemma APO_i p : uses [fClose] -> RR (rows 1 0) (rows_of (@I_APO N1) p kl) (rows_of (@I_APO N2) p kl').
Proof. intros U. cbn. unfold apo_calc. ohlc. go. mkr. Qed.
Lemma AO_i p : uses [fHigh; fLow] -> RR (rows 1 0) (rows_of (@I_AO N1) p kl) (rows_of (@I_AO N2) p kl').
Proof. intros U. cbn. unfold ao_calc. ohlc. go. app. Qed.
Lemma Chaikin_i p : uses [fHigh; fLow; fClose; fVolume] -> RR (Forall2 (rowR chaikinR)) (rows_of (@I_Chaikin N1) p kl) (rows_of (@I_Chaikin N2) p kl').
Proof.
  intros U. change (RR (Forall2 (rowR chaikinR)) (chaikin_calc p kl []) (chaikin_calc p kl' [])). unfold chaikin_calc.
  eapply rr_bind; [eapply AD_s; us|intros].
  eapply rr_bind; [eapply (@values_s _ _ _ _ _ (fr 0 1) 0 1); [auto|eassumption]|intros]. go. app. okf.
Qed.
Lemma mid_line_s a b h l h' l' : frs 1 0 h h' -> frs 1 0 l l' -> RR (frs 1 0) (@mid_line N1 a b h l) (@mid_line N2 a b h' l').
Proof. intros. unfold mid_line. go. Qed.
Hint Resolve mid_line_s : sim.
Lemma Ichi_i p : uses [fHigh; fLow; fClose] -> RR (Forall2 (rowR ichiR)) (rows_of (@I_Ichimoku N1) p kl) (rows_of (@I_Ichimoku N2) p kl').
Proof. intros U. cbn. unfold ichi_calc. ohlc. go. app. okf. Qed.
Lemma PPO_i p : uses [fClose] -> RR (Forall2 (rowR ppoR)) (rows_of (@I_PPO N1) p kl) (rows_of (@I_PPO N2) p kl').
Proof. intros U. cbn. unfold ppo_calc. ohlc. go. app. okf. Qed.
Lemma Proj_i p : uses [fHigh; fLow; fClose] -> RR (Forall2 (rowR projR)) (rows_of (@I_Projection N1) p kl) (rows_of (@I_Projection N2) p kl').
Proof. intros U. cbn. unfold proj_calc. ohlc. rewrite (frs_len or_c). go. app. okf. Qed.
Lemma Stoch_i p : uses [fHigh; fLow; fClose] -> RR (Forall2 (rowR kdR)) (rows_of (@I_Stoch N1) p kl) (rows_of (@I_Stoch N2) p kl').
Proof. intros U. cbn. unfold stoch_calc. ohlc. go. app. okf. Qed.
Lemma VOsc_i p : uses [fVolume] -> RR (rows 0 0) (rows_of (@I_VOsc N1) p kl) (rows_of (@I_VOsc N2) p kl').
Proof. intros U. cbn. unfold vosc_calc. ohlc. go. mkr. Qed.
Lemma Williams_i p : uses [fHigh; fLow; fClose] -> RR (rows 0 0) (rows_of (@I_Williams N1) p kl) (rows_of (@I_Williams N2) p kl').
Proof. intros U. cbn. unfold williams_calc. ohlc. mid (frs 0 0); [unfold williams; go; loop (frs 0 0)|]. app. Qed.
End SimAll.
