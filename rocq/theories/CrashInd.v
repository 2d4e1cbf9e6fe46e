(** * CrashInd: which candle lists and parameters make each indicator panic (proofs of C90). *)
From Verif Require Import Base Num Order Containers Ta TaTools TaElem TaAvg TaDev TaReg TaRange TaOrd SpecTa Regression
  Sides Klines KlineProofs3 IndBase IndTrend IndChannel IndVolume IndOsc IndTools IndForms IndForms2 IndForms3 IndForms4 IndForms5 IndMachines BreakProb
  IndSides IndSignals CountLaw PropInd5 PropInd11 PropInd12 Crash.
Set Implicit Arguments.
Open Scope Z_scope.

Lemma runs_of_iff A (r : res A) (P : A -> Prop) b : (r = Panic <-> b) -> (forall a, r = Ok a -> P a) -> runs r P b.
Proof. intros H HP. destruct r as [a|]; [right|left]; (split; [|try tauto]). - intros B. apply H in B. discriminate. - eauto. - now apply H. Qed.

Ltac sz := first [eassumption | apply tab_length | apply repeat_length].
Ltac step1 := lazymatch goal with
  | |- runs (Ema _ _) _ _ => eapply r_Ema; sz
  | |- runs (Sma _ _) _ _ => eapply r_Sma; sz
  | |- runs (Sum _ _) _ _ => eapply r_Sum; sz
  | |- runs (Rma _ _) _ _ => eapply r_Rma; sz
  | |- runs (Wma _ _) _ _ => eapply r_Wma; sz
  | |- runs (Dema _ _) _ _ => eapply r_Dema; sz
  | |- runs (Max _ _) _ _ => eapply r_Max; sz
  | |- runs (Min _ _) _ _ => eapply r_Min; sz
  | |- runs (MultiplyBy _ _) _ _ => eapply r_MultiplyBy; sz
  | |- runs (DivideBy _ _) _ _ => eapply r_DivideBy; sz
  | |- runs (AddBy _ _) _ _ => eapply r_AddBy; sz
  | |- runs (Pow _ _) _ _ => eapply r_Pow; sz
  | |- runs (Sqrt _) _ _ => eapply r_Sqrt; sz
  | |- runs (Nzs _ _) _ _ => eapply r_Nzs; sz
  | |- runs (ShiftRightAndFillBy _ _ _) _ _ => eapply r_Shift; sz
  | |- runs (ShiftRight _ _) _ _ => eapply r_ShiftRight; sz
  | |- runs (Diff _ 1) _ _ => eapply r_Diff; sz
  | |- runs (Add _ _) _ _ => eapply r_Add; sz
  | |- runs (Subtract _ _) _ _ => eapply r_Subtract; sz
  | |- runs (Multiply _ _) _ _ => eapply r_Multiply; sz
  | |- runs (Divide _ _) _ _ => eapply r_Divide; sz
  | |- runs (KeepPositives _) _ _ => eapply r_KeepPositives; sz
  | |- runs (KeepNegatives _) _ _ => eapply r_KeepNegatives; sz
  | |- runs (ExtractSign _) _ _ => eapply r_ExtractSign; sz
  | |- runs (LinearReg _ _) _ _ => eapply r_LinearReg; sz
  | |- runs (Atr _ _ _ _) _ _ => eapply r_Atr; sz
  | |- runs (Natr _ _ _ _) _ _ => eapply r_Natr; sz
  | |- runs (CCI _ _ _) _ _ => eapply r_CCI; sz
  | |- runs (AiCoinCCI _ _ _) _ _ => eapply r_AiCoinCCI; sz
  | |- runs (PivotHigh _ _ _) _ _ => eapply r_PivotHigh; sz
  | |- runs (PivotLow _ _ _) _ _ => eapply r_PivotLow; sz
  end.
Ltac steps := repeat (eapply runs_bind; [step1|cbn beta; intros ? ? ?]).
(** every index the row reads exists *)
Ltac got1 l i E := match goal with
  | H : length l = _ |- _ => destruct (r_get l (i := i) H ltac:(lia)) as [? E]
  | _ => destruct (r_get l (i := i) (tab_length _ _) ltac:(lia)) as [? E]
  end.
Ltac got := repeat match goal with
  | |- exists v, get ?l ?i = Ok v => let E := fresh in got1 l i E; eexists; exact E
  | |- exists v, bind (get ?l ?i) _ = Ok v => let E := fresh in got1 l i E; rewrite E; cbn [bind]
  | |- exists v, Ok _ = Ok v => eexists; reflexivity
  end.
Ltac lens := repeat match goal with H : length ?a = length _ |- context [len ?a] => unfold len at 1; rewrite H end.
Ltac side_len := unfold len; rewrite ?tab_length; congruence || (try reflexivity).
Ltac rows_end := lazymatch goal with
  | |- runs (append_rows _ _ _ _) _ _ => eapply r_append; [side_len | intros; first [apply r_time_at; assumption | eapply r_time_in; [sz|assumption]] | intros; got]
  | |- runs (make_rows _ _ _ _ _ _) _ _ => eapply r_make; [side_len | side_len | lia | intros; first [apply r_time_at; unfold len; lia | eapply r_time_in; [sz|lia]] | intros; got]
  end.
Tactic Notation "opens" reference(I) reference(calc) := unfold rows_of, GetData, I; cbn [len length Z.of_nat Z.eqb Calculation Val Param]; unfold calc; rewrite ?OHLC_T;
  cbn [bind oOpen oHigh oLow oClose oVolume oBull oTime OH].
Tactic Notation "crash" reference(I) reference(calc) := eapply runs_eq; cycle 1; [
  unfold rows_of, GetData, I; cbn [len length Z.of_nat Z.eqb Calculation Val Param]; unfold calc; rewrite ?OHLC_T;
  cbn [bind oOpen oHigh oLow oClose oVolume oBull oTime OH]; steps; rows_end|unfold len; intuition lia].

Section Ind.
Context {N : Num}.
Variable kl : list Candle.
Local Notation n := (len kl).
Local Notation RUN I p b := (runs (rows_of I p kl) (fun r => length r = length kl) b).

Lemma x_Ma p : RUN I_Ma p (p < 0 /\ 0 < n). Proof. crash I_Ma ma_calc. Qed.
Lemma x_Sma p : RUN I_Sma p (p < 0 /\ 0 < n). Proof. crash I_Sma sma_calc. Qed.
Lemma x_Ema p : RUN I_Ema p False. Proof. crash I_Ema ema_calc. Qed.
Lemma x_Dema p : RUN I_Dema p False. Proof. crash I_Dema dema_calc. Qed.
Lemma x_Macd p : RUN I_Macd p False. Proof. crash I_Macd macd_calc. Qed.
Lemma x_AiCoinCCI p : RUN I_AiCoinCCI p False. Proof. crash I_AiCoinCCI aicoin_calc. Qed.
Lemma x_TraderXO p : RUN I_TraderXO p False. Proof. crash I_TraderXO traderxo_calc. Qed.
Lemma x_EMAVegas p : RUN I_EMAVegas p False. Proof. crash I_EMAVegas vegas_calc. Qed.
Lemma x_LRC p : RUN I_LRC p (lrLength p <= 0 \/ n < lrLength p \/ lrSMA p = true /\ lrSmooth p < 0).
Proof.
  eapply runs_eq; cycle 1.
  - opens I_LRC lrc_calc. steps. eapply runs_bind with (P := fun r : list F => length r = length kl) (b1 := lrSMA p = true /\ lrSmooth p < 0 /\ (0 < length kl)%nat).
    + destruct (lrSMA p); [eapply runs_eq; cycle 1; [step1|tauto]|eapply runs_eq; cycle 1; [step1|intuition congruence]].
    + cbn beta. intros. rows_end.
  - unfold len. destruct (Z_le_gt_dec (lrLength p) 0), (Z_lt_le_dec (Z.of_nat (length kl)) (lrLength p)); intuition lia.
Qed.
Lemma x_Donchian p : RUN I_Donchian p (p < 0 \/ p = 0 /\ 0 < n). Proof. crash I_Donchian donchian_calc. Qed.
Lemma x_Ulcer p : RUN I_Ulcer p (p < 0 \/ p = 0 /\ 0 < n). Proof. crash I_Ulcer ulcer_calc. Qed.
Lemma x_CMF p : RUN I_CMF p (p < 0 /\ 0 < n). Proof. crash I_CMF cmf_calc. Qed.
Lemma x_EMV p : RUN I_EMV p (p < 0 /\ 0 < n). Proof. crash I_EMV emv_calc. Qed.
Lemma x_Force p : RUN I_Force p False. Proof. crash I_Force force_calc. Qed.
Lemma x_Vwma p : RUN I_Vwma p (p < 0 /\ 0 < n). Proof. crash I_Vwma vwma_calc. Qed.
Lemma x_APO p : RUN I_APO p False. Proof. crash I_APO apo_calc. Qed.
Lemma x_AO p : RUN I_AO p False. Proof. crash I_AO ao_calc. Qed.
Lemma x_PPO p : RUN I_PPO p False. Proof. crash I_PPO ppo_calc. Qed.
Lemma x_VOsc p : RUN I_VOsc p False. Proof. crash I_VOsc vosc_calc. Qed.

Ltac never E := apply runs_never; rewrite E; eexists; split; [reflexivity|apply tab_length].
Lemma x_Rma p : runs (rows_of I_Rma p kl) (fun _ => True) False.
Proof.
  eapply runs_eq; cycle 1.
  - opens I_Rma rma_calc. steps. rewrite make_len. cbn [bind]. apply runs_never. unfold append_rows.
    match goal with |- exists a, for_ ?lo ?hi ?b ?s = _ /\ _ => destruct (@for_inv _ (fun _ _ => True) lo hi b s) as (r & E & Q) end.
    + apply len_nonneg.
    + exact I.
    + intros i r Hi _. unfold len in Hi. destruct (@r_time_at N kl i) as [t ->]; [unfold len; lia|]. cbn [bind].
      destruct (r_get a (i := i) H0 ltac:(lia)) as [v ->]. cbn [bind]. eauto.
    + eauto.
  - tauto.
Qed.
Lemma x_Atr p : RUN I_Atr p False. Proof. never (Atr_ind_T p kl). Qed.
Lemma x_Keltner p : RUN I_Keltner p False. Proof. never (Keltner_T p kl). Qed.
Lemma x_Camarilla p : RUN I_Camarilla p False. Proof. never (Camarilla_T p kl). Qed.
Lemma x_AD p : RUN I_AD p False. Proof. destruct p. never (AD_T kl). Qed.
Lemma x_NVI p : RUN I_NVI p False. Proof. destruct p. never (NVI_T kl). Qed.
Lemma x_Obv p : RUN I_Obv p False. Proof. destruct p. never (Obv_T kl). Qed.
Lemma x_Chaikin p : RUN I_Chaikin p False. Proof. never (Chaikin_T p kl). Qed.
Lemma x_Reversal p : RUN I_Reversal p False. Proof. destruct p. never (Reversal_T kl). Qed.
Lemma x_Breakout p : RUN I_BreakoutProbability p False. Proof. never (Breakout_T p kl). Qed.
Lemma x_MFI p : RUN I_MFI p (p < 0 /\ 0 < n).
Proof.
  eapply runs_eq; cycle 1; [opens I_MFI mfi_calc; rewrite typical_T; cbn [bind]; steps; rows_end|unfold len; intuition lia].
Qed.
Lemma x_Rsi p : RUN I_Rsi p (2 <= p /\ p = n).
Proof.
  apply runs_of_iff; [apply C42_panics_iff|]. intros a E.
  destruct (Z_lt_le_dec p 2) as [Hp|Hp]; [|destruct (Z.lt_trichotomy n p) as [Hl|[Hl|Hl]]].
  - rewrite Rsi_short in E by lia. injection E as <-. apply tab_length.
  - rewrite Rsi_short in E by lia. injection E as <-. apply tab_length.
  - rewrite <- Hl, Rsi_panic in E by (unfold len in *; lia). discriminate.
  - replace p with (Z.of_nat (Z.to_nat p)) in E by lia. rewrite Rsi_T in E by (unfold len in *; lia). injection E as <-. apply tab_length.
Qed.
Lemma r_values_app A (f : A -> F) (l : list (row A)) m : length l = m -> runs (values_app f l) (fun r => length r = m) False.
Proof. intros L. apply runs_never. rewrite values_app_spec. eexists. split; [reflexivity|]. now rewrite map_length. Qed.
Lemma x_StochRsi p : RUN I_StochRsi p ((2 <= srRsi p /\ srRsi p = n) \/ srStoch p < 0 \/ srStoch p = 0 /\ 0 < n).
Proof.
  eapply runs_eq; cycle 1.
  - unfold rows_of, GetData, I_StochRsi; cbn [len length Z.of_nat Z.eqb Calculation Val Param]; unfold stochrsi_calc.
    eapply runs_bind; [apply x_Rsi|cbn beta; intros ? a La]. eapply runs_bind; [apply (r_values_app _ a La)|cbn beta; intros ? b Lb]. steps; rows_end.
  - unfold len; intuition lia.
Qed.
Lemma x_Kdj p : RUN I_Kdj p (p = 1 /\ 0 < n).
Proof.
  eapply runs_eq; [|apply runs_of_iff; [apply C44_panics_iff|]].
  - unfold len. destruct kl; cbn [length]; intuition (congruence || lia).
  - intros a E. destruct (Z_lt_le_dec p 1); [rewrite Kdj_none in E by lia; injection E as <-; apply tab_length|].
    destruct (Z.eq_dec p 1) as [->|Hne].
    + destruct kl as [|c ks]; [injection E as <-; reflexivity|]. rewrite Kdj_panic in E by discriminate. discriminate.
    + replace p with (Z.of_nat (Z.to_nat p)) in E by lia. rewrite Kdj_T in E by lia. injection E as <-. apply tab_length.
Qed.
Lemma x_Cci p : RUN I_Cci p (cciPeriod p <= 0 \/ cciSma p < 0 /\ 0 < n).
Proof. eapply runs_eq; cycle 1; [opens I_Cci cci_calc; unfold HLC3; rewrite percandle_T; cbn [bind]; steps; rows_end|unfold len; intuition lia]. Qed.
Lemma x_Vortex p : RUN I_Vortex p (p < 0 \/ p = 0 /\ 2 <= n).
Proof.
  apply runs_of_iff; [apply C77_panics_iff|]. intros a E. destruct (Z_lt_le_dec p 1) as [Hp|Hp].
  - destruct (Z_lt_le_dec p 0) as [H0|H0].
    { assert (X : rows_of I_Vortex p kl = Panic) by (apply C77_panics_iff; lia). rewrite X in E. discriminate. }
    revert E. opens I_Vortex vortex_calc. unfold vortex. rewrite len_tab, make_tab. cbn [bind]. replace p with 0 by lia.
    change (make fzero 0) with (Ok (@nil F)). cbn [bind]. destruct (Z_le_gt_dec 2 (Z.of_nat (length kl))) as [Hl|Hl].
    + rewrite for_step by lia. discriminate.
    + rewrite for_empty by lia. cbn [bind]. rewrite <- tab_const, len_tab.
      rewrite (@append_rows_T _ _ _ _ _ _ (fun _ => mkVortexV fzero fzero) _ eq_refl); [|intros; now apply time_at_T|T_get].
      intros E. injection E as <-. apply tab_length.
  - rewrite Vortex_T in E by exact Hp. injection E as <-. apply tab_length.
Qed.
Lemma x_SuperTrend p : RUN I_SuperTrend p (2 <= stPeriod p /\ n <= stPeriod p \/ stChange p = false /\ stPeriod p < 0 /\ 0 < n).
Proof.
  eapply runs_eq; cycle 1.
  - opens I_SuperTrend supertrend_calc. unfold HL2. rewrite percandle_T. cbn [bind]. unfold supertrend.
    eapply runs_bind with (P := fun r : list STRow => length r = length kl).
    + cbn [oClose OH]. rewrite len_tab, make_tab. cbn [bind].
      eapply runs_bind with (P := fun r : list F => length r = length kl) (b1 := 2 <= stPeriod p /\ Z.of_nat (length kl) <= stPeriod p \/ stChange p = false /\ stPeriod p < 0 /\ (0 < length kl)%nat).
      * unfold st_atr. cbn [oHigh oLow oClose OH]. destruct (stChange p).
        -- eapply runs_eq; cycle 1; [step1|intuition congruence].
        -- eapply runs_eq; cycle 1; [eapply runs_bind; [step1|cbn beta; intros ? ? ?]; step1|tauto].
      * cbn beta. intros _ atr Latr. rewrite len_tab.
        eapply runs_bind with (P := fun r : list STRow => length r = length kl) (b1 := False).
        -- apply runs_never. destruct (Z.ltb_spec 0 (Z.of_nat (length kl))).
           ++ rewrite set_ok by (unfold len; rewrite repeat_length; lia). eexists. split; [reflexivity|]. now rewrite upd_length, repeat_length.
           ++ eexists. split; [reflexivity|apply repeat_length].
        -- cbn beta. intros _ rows Lr. eapply r_scan; [exact Lr|reflexivity|]. intros. got.
    + cbn beta. intros _ rows Lr. rows_end.
  - unfold len. intuition lia.
Qed.
Lemma x_PPST p : RUN I_PPST p (ppPeriod p < 0 \/ 2 <= ppAtr p /\ n <= ppAtr p).
Proof.
  eapply runs_eq; cycle 1.
  - opens I_PPST ppst_calc. unfold ppsupertrend. cbn [oHigh oLow oClose OH].
    eapply runs_bind with (P := fun r : list PPRow => length r = length kl).
    + steps. rewrite len_tab, make_tab. cbn [bind]. eapply r_scan; [apply repeat_length|reflexivity|]. intros. got.
    + cbn beta. intros _ rows Lr. rows_end.
  - unfold len. intuition lia.
Qed.
Lemma x_UTBot p : RUN I_UTBot p (2 <= utAtr p /\ n <= utAtr p).
Proof.
  eapply runs_eq; cycle 1.
  - opens I_UTBot utbot_calc. unfold utbot. cbn [oHigh oLow oClose OH].
    eapply runs_bind with (P := fun r : list F => length r = length kl).
    + steps. rewrite len_tab, make_tab. cbn [bind]. eapply r_scan; [apply repeat_length|reflexivity|]. intros. got.
    + cbn beta. intros _ rows Lr. rows_end.
  - unfold len. intuition lia.
Qed.
Lemma x_ADX p : RUN I_ADX p (axPeriod p <= 0 \/ axLen p < 0 /\ 0 < n).
Proof.
  destruct (Z_le_gt_dec (axPeriod p) 0) as [Hp|Hp]; [apply runs_panic; [now left|now apply C78_panics]|].
  eapply runs_eq; cycle 1.
  - opens I_ADX adx_calc. rewrite adx_dm_T. cbn [bind]. rewrite !smooth_T. cbn [bind]. rewrite len_tab, adx_lines_T by lia. cbn [bind].
    steps. rows_end.
  - unfold len. intuition lia.
Qed.
End Ind.

Section Ind2.
Context {N : Num}.
Local Notation RUN kl I p b := (runs (rows_of I p kl) (fun r => length r = length kl) b).
Lemma x_Boll kl p : RUN kl I_Boll p (blN p <= 0 /\ 0 < len kl).
Proof.
  destruct (Z_le_gt_dec (blN p) 0) as [Hp|Hp].
  2:{ apply runs_good; [lia|]. rewrite Boll_T by lia. eexists. split; [reflexivity|apply tab_length]. }
  destruct kl as [|c ks].
  { apply runs_good; [unfold len; cbn; lia|]. exists []. split; [|reflexivity]. reflexivity. }
  apply runs_panic; [unfold len; cbn [length]; lia|].
  unfold rows_of, GetData, I_Boll. cbn [Val Param Calculation]. change (len (@nil (row BollV)) =? 0) with true. cbn iota. unfold boll_calc.
  destruct (rows_of I_Sma (blN p) (c :: ks)) as [sm|] eqn:E; [|reflexivity]. cbn [bind].
  rewrite values_spec. cbn [bind]. unfold boll_md. rewrite make_len. cbn [bind]. unfold range_.
  rewrite for_last_panic; [reflexivity|unfold len; cbn [length]; lia|].
  intros [s r]. set (i := len (c :: ks) - 1). assert (Hi : 0 <= i < len (c :: ks)) by (unfold i, len; cbn [length]; lia).
  destruct (@get_in_range _ (c :: ks) i Hi) as [v ->]. cbn [bind]. destruct (Z.ltb_spec i (blN p - 1)); [lia|].
  match goal with |- bind ?r _ = _ => destruct r; cbn [bind]; [|reflexivity] end.
  match goal with |- bind ?r _ = _ => destruct r; cbn [bind]; [|reflexivity] end.
  rewrite get_out; [reflexivity|right]. unfold i. lia.
Qed.
Lemma x_VPT kl p : RUN kl I_VPT p (p < 0 \/ len kl = 0).
Proof.
  destruct kl as [|c ks]; [apply runs_panic; [right; reflexivity|apply VPT_empty]|].
  destruct (Z_lt_le_dec p 0) as [Hp|Hp].
  - apply runs_panic; [now left|]. opens I_VPT vpt_calc.
    destruct (get _ 0) as [c0|]; cbn [bind]; [|reflexivity].
    destruct (@r_Shift N (tab (length (c :: ks)) (fun i => cClose (cn (c :: ks) i))) _ (tab_length _ _) p c0) as [[_ ->]|[X _]]; [reflexivity|]. cbn [length] in X. lia.
  - apply runs_good; [unfold len; cbn [length]; lia|]. rewrite VPT_T by (exact Hp || discriminate). eexists. split; [reflexivity|apply tab_length].
Qed.
Lemma r_mid (kl : list Candle) a b (f g : nat -> F) : runs (mid_line a b (tab (length kl) f) (tab (length kl) g)) (fun r => length r = length kl)
  ((a < 0 \/ a = 0 /\ 0 < len kl) \/ (b < 0 \/ b = 0 /\ 0 < len kl)).
Proof.
  eapply runs_eq; cycle 1.
  - unfold mid_line. steps. step1.
  - unfold len. intuition lia.
Qed.
Lemma x_Ichimoku kl p : RUN kl I_Ichimoku p
  (icConv p < 0 \/ icConv p = 0 /\ 0 < len kl \/ icSpanB p < 0 \/ icSpanB p = 0 /\ 0 < len kl \/ icLag p < 0 /\ 0 < len kl).
Proof.
  eapply runs_eq; cycle 1.
  - opens I_Ichimoku ichi_calc. eapply runs_bind; [apply r_mid|cbn beta; intros _ conv Lc]. eapply runs_bind; [apply r_mid|cbn beta; intros _ base Lb].
    steps. eapply runs_bind; [apply r_mid|cbn beta; intros _ span Ls]. steps. rows_end.
  - unfold len. intuition lia.
Qed.
Lemma x_Projection kl p : CountLaw N -> len kl <= 2 ^ 53 -> RUN kl I_Projection p (pjPeriod p < 0 \/ pjPeriod p = 0 /\ 0 < len kl).
Proof.
  intros HC Hn. eapply runs_eq; cycle 1.
  - opens I_Projection proj_calc. rewrite len_tab. rewrite GenerateNumbers_tab by (exact HC || (unfold len in Hn; lia)). cbn [bind].
    eapply runs_bind; [eapply r_MLS; sz|cbn beta; intros _ [mh bh] [L1 L2]; cbn [fst snd] in *].
    eapply runs_bind; [eapply r_MLS; sz|cbn beta; intros _ [ml bl] [L3 L4]; cbn [fst snd] in *].
    steps. rows_end.
  - unfold len. intuition lia.
Qed.
Lemma x_Stoch kl p : RUN kl I_Stoch p (p < 0 \/ p = 0 /\ 0 < len kl).
Proof.
  eapply runs_eq; cycle 1.
  - opens I_Stoch stoch_calc. eapply runs_bind; [eapply r_Stochastic; sz|cbn beta; intros _ [k d] [L1 L2]; cbn [fst snd] in *]. rows_end.
  - unfold len. intuition lia.
Qed.
Lemma x_Williams kl p : RUN kl I_Williams p (p < 0 \/ p = 0 /\ 0 < len kl).
Proof.
  eapply runs_eq; cycle 1.
  - opens I_Williams williams_calc. unfold williams. eapply runs_bind with (P := fun r : list F => length r = length kl).
    + steps. rewrite len_tab, make_tab. cbn [bind]. eapply runs_never.
      match goal with |- exists a, for_ ?lo ?hi ?b ?s = _ /\ _ => destruct (@for_inv _ (fun _ r => length r = length kl) lo hi b s) as (r & E & Q) end.
      * lia.
      * apply repeat_length.
      * intros i r Hi Hr. destruct (r_get a (i := i) H0 ltac:(lia)) as [v ->]. cbn [bind].
        destruct (r_get (tab (length kl) (fun i => cClose (cn kl i))) (i := i) (tab_length _ _) ltac:(lia)) as [w ->]. cbn [bind].
        destruct (r_get a0 (i := i) H2 ltac:(lia)) as [u ->]. cbn [bind]. rewrite set_ok by (unfold len; lia). eexists. split; [reflexivity|]. now rewrite upd_length.
      * eauto.
    + cbn beta. intros _ r Lr. rows_end.
  - unfold len. intuition lia.
Qed.

(** ** StochasticHeat *)
Definition ma_bad (kind p n : Z) : Prop :=
  (kind = tSMA /\ p < 0 /\ 0 < n) \/ (kind = tWMA /\ (n + 1 < p \/ p <= 0 /\ 0 < n)).
Lemma r_getStoch p (cl hi lo : list F) n i : length cl = n -> length hi = n -> length lo = n -> 1 <= i ->
  runs (getStoch p cl hi lo i) (fun r => length r = n) (hInc p < 0 \/ hInc p = 0 /\ (0 < n)%nat \/ ma_bad (hMA p) (hFast p) (Z.of_nat n)).
Proof.
  intros L1 L2 L3 Hi. unfold getStoch. eapply runs_eq; cycle 1.
  - eapply runs_bind; [eapply r_Stochastic; sz|cbn beta; intros _ [k d] [Lk Ld]; cbn [fst snd] in *].
    instantiate (1 := ma_bad (hMA p) (hFast p) (Z.of_nat n)). unfold ma_bad, tSMA, tEMA, tWMA.
    destruct (Z.eqb_spec (hMA p) 4); [eapply runs_eq; cycle 1; [step1|lia]|].
    destruct (Z.eqb_spec (hMA p) 2); [eapply runs_eq; cycle 1; [step1|lia]|].
    destruct (Z.eqb_spec (hMA p) 8); [eapply runs_eq; cycle 1; [step1|lia]|].
    eapply runs_eq; [|apply runs_ok; exact Lk]. lia.
  - assert (E1 : i * hInc p < 0 <-> hInc p < 0) by nia. assert (E2 : i * hInc p = 0 <-> hInc p = 0) by nia. rewrite E1, E2. tauto.
Qed.
Lemma r_lines p (cl hi lo : list F) n : length cl = n -> length hi = n -> length lo = n ->
  runs (heat_lines p cl hi lo) (fun r => Forall (fun l => length l = n) r) (hInc p < 0 \/ hInc p = 0 /\ (0 < n)%nat \/ ma_bad (hMA p) (hFast p) (Z.of_nat n)).
Proof.
  intros L1 L2 L3. unfold heat_lines.
  destruct (@r_getStoch p cl hi lo n 1 L1 L2 L3 (Z.le_refl 1)) as [[B E]|(B & _)].
  - apply runs_panic; [exact B|]. rewrite for_step by lia. rewrite E. reflexivity.
  - apply runs_good; [exact B|]. apply for_inv with (I := fun _ r => Forall (fun l => length l = n) r); [lia|constructor|].
    intros i acc Hi Ha. destruct (@r_getStoch p cl hi lo n i L1 L2 L3 ltac:(lia)) as [[C _]|(_ & a & -> & La)]; [contradiction|]. cbn [bind].
    eexists. split; [reflexivity|]. apply Forall_app. split; [exact Ha|]. now constructor.
Qed.
Lemma r_slow p (fast : list F) n : length fast = n -> (0 < n)%nat ->
  runs (heat_slow p fast) (fun r => length r = n) (hMA p = tSMA /\ hSlow p < 0 \/ hMA p <> tSMA /\ hMA p <> tEMA /\ (Z.of_nat n + 1 < hSlow p \/ hSlow p <= 0)).
Proof.
  intros L Hn. unfold heat_slow, tSMA, tEMA.
  destruct (Z.eqb_spec (hMA p) 4); [eapply runs_eq; cycle 1; [step1|lia]|].
  destruct (Z.eqb_spec (hMA p) 2); [eapply runs_eq; cycle 1; [step1|lia]|].
  eapply runs_eq; cycle 1; [step1|lia].
Qed.
Lemma r_heat_sum n lines i : Forall (fun l : list F => length l = n) lines -> 0 <= i < Z.of_nat n -> exists v, heat_sum lines i = Ok v.
Proof.
  intros Hl Hi. destruct lines as [|l0 rest]; [eexists; reflexivity|]. inversion Hl as [|? ? L0 Lr]; subst. cbn [heat_sum].
  destruct (r_get l0 (i := i) eq_refl Hi) as [v ->]. cbn [bind]. unfold range_.
  match goal with |- exists a, for_ ?lo ?hi ?b ?s = _ => destruct (@for_inv _ (fun _ _ => True) lo hi b s) as (r & E & Q) end.
  - apply len_nonneg.
  - exact I.
  - intros j s Hj _. destruct (@get_in_range _ rest j Hj) as [l El]. rewrite El. cbn [bind].
    apply get_ok_iff in El as [_ El]. apply nth_error_In in El. rewrite Forall_forall in Lr. specialize (Lr l El).
    destruct (r_get l (i := i) Lr Hi) as [w ->]. cbn [bind]. eauto.
  - eauto.
Qed.
Lemma x_Heat kl p : RUN kl I_StochasticHeat p
  (hInc p < 0 \/ hInc p = 0 /\ 0 < len kl \/ ma_bad (hMA p) (hFast p) (len kl) \/
   0 < len kl /\ (hMA p = tSMA /\ hSlow p < 0 \/ hMA p <> tSMA /\ hMA p <> tEMA /\ (len kl + 1 < hSlow p \/ hSlow p <= 0))).
Proof.
  eapply runs_eq; cycle 1.
  - opens I_StochasticHeat heat_calc. eapply runs_bind with (P := fun r : list F * list F => length (fst r) = length kl /\ length (snd r) = length kl).
    + unfold heat. eapply runs_bind; [apply r_lines with (n := length kl); apply tab_length|cbn beta; intros _ lines Hl].
      rewrite !make_len. cbn [bind].
      instantiate (1 := (0 < len kl) /\ (hMA p = tSMA /\ hSlow p < 0 \/ hMA p <> tSMA /\ hMA p <> tEMA /\ (len kl + 1 < hSlow p \/ hSlow p <= 0))).
      destruct (Z.eq_dec (len kl) 0) as [E0|E0].
      { apply runs_good; [lia|]. rewrite for_empty by lia. eexists. split; [reflexivity|]. cbn [fst snd]. rewrite !repeat_length. auto. }
      assert (Hn : (0 < length kl)%nat) by (unfold len in E0; lia).
      destruct (@r_slow p (repeat fzero (length kl)) (length kl) (repeat_length _ _) Hn) as [[B _]|[B _]].
      * apply runs_panic; [unfold len; split; [lia|exact B]|].
        rewrite for_step by (unfold len; lia).
        destruct (@r_heat_sum (length kl) lines 0 Hl ltac:(lia)) as [v ->]. cbn [bind]. rewrite set_ok by (unfold len; rewrite repeat_length; lia). cbn [bind].
        match goal with |- context [heat_slow p ?f] => destruct (@r_slow p f (length kl)) as [[_ ->]|[C _]] end;
          [now rewrite upd_length, repeat_length|exact Hn|reflexivity|contradiction].
      * apply runs_good; [unfold len; tauto|].
        apply for_inv with (I := fun _ r => length (fst r) = length kl /\ length (snd r) = length kl).
        -- apply len_nonneg.
        -- cbn [fst snd]. rewrite !repeat_length. auto.
        -- intros i [f s] Hi [F1 F2]. cbn [fst snd] in *. destruct (@r_heat_sum (length kl) lines i Hl ltac:(unfold len in Hi; lia)) as [v ->]. cbn [bind].
           rewrite set_ok by (unfold len in *; lia). cbn [bind].
           match goal with |- context [heat_slow p ?f] => destruct (@r_slow p f (length kl)) as [[C _]|(_ & w & -> & Lw)] end;
             [now rewrite upd_length|exact Hn|contradiction|]. cbn [bind]. eexists. split; [reflexivity|]. cbn [fst snd]. rewrite upd_length. auto.
    + cbn beta. intros _ [f s] [L1 L2]. cbn [fst snd] in *. rows_end.
  - unfold len. intuition lia.
Qed.
End Ind2.
