(** * PropFields: which candle fields each indicator and each strategy depends on.

    A candle carries an amount, a count, open, close, low, high, volume, a change, a
    bull flag and a time.  The tables below list, for every indicator and every
    strategy, the fields that can influence its values and its signals.  The theorems
    hold for every arithmetic, float64 included; that each field listed does
    influence the values is shown in float64. *)
From Coq Require Import String SpecFloat.
From Verif Require Import Base Num B64 Containers Ta Regression Sides Klines IndBase IndTrend IndChannel IndVolume IndOsc IndAll
  Sim SimTa SimInd SimAll SimRest FieldUse Lits.
Set Implicit Arguments.
Open Scope Z_scope.

(** ** Specification *)
Section Spec.
Context {N : Num}.
(** two candles with the same content in the fields of [l]; everything else (amount, count, change, time, the other fields) is free *)
Definition same_in (l : list field) (k k' : Candle) : Prop :=
  (In fOpen l -> cOpen k = cOpen k') /\ (In fHigh l -> cHigh k = cHigh k') /\ (In fLow l -> cLow k = cLow k') /\
  (In fClose l -> cClose k = cClose k') /\ (In fVolume l -> cVolume k = cVolume k') /\ (In fBull l -> cBull k = cBull k').
(** the values an indicator computes, without the times of the rows *)
Definition values_of (I : Indicator) (p : Param I) (kl : list Candle) : res (list (Val I)) :=
  rmap (map (@rVal (Val I))) (rows_of I p kl).

Definition value_fields : list (Indicator * list field) :=
  let C := [fClose] in let HL := [fHigh; fLow] in let HLC := [fHigh; fLow; fClose] in
  let CV := [fClose; fVolume] in let HLCV := [fHigh; fLow; fClose; fVolume] in
  let OHLC := [fOpen; fHigh; fLow; fClose] in
  [(I_Ma, C); (I_Sma, C); (I_Ema, C); (I_Dema, C); (I_Rma, C); (I_AiCoinCCI, C); (I_Ulcer, C); (I_Macd, C);
   (I_TraderXO, C); (I_EMAVegas, C); (I_Donchian, C); (I_Boll, C); (I_APO, C); (I_PPO, C); (I_Rsi, C); (I_StochRsi, C);
   (I_AO, HL);
   (I_Cci, HLC); (I_Atr, HLC); (I_Vortex, HLC); (I_StochasticHeat, HLC); (I_ADX, HLC); (I_UTBot, HLC); (I_Keltner, HLC);
   (I_Ichimoku, HLC); (I_Projection, HLC); (I_Stoch, HLC); (I_Williams, HLC); (I_Kdj, HLC); (I_SuperTrend, HLC);
   (I_PPST, HLC); (I_Reversal, HLC); (I_Camarilla, HLC);
   (I_LRC, OHLC); (I_BreakoutProbability, OHLC);
   (I_CMF, HLCV); (I_MFI, HLCV); (I_AD, HLCV); (I_Chaikin, HLCV);
   (I_EMV, [fHigh; fLow; fVolume]);
   (I_Force, CV); (I_NVI, CV); (I_VPT, CV); (I_Vwma, CV); (I_Obv, CV);
   (I_VOsc, [fVolume])].
Definition signal_fields : list (Indicator * list field) :=
  let C := [fClose] in let HLC := [fHigh; fLow; fClose] in let HLCV := [fHigh; fLow; fClose; fVolume] in
  [(I_Rsi, C); (I_StochRsi, C); (I_Macd, C); (I_AiCoinCCI, C); (I_TraderXO, C); (I_Boll, C); (I_Donchian, C); (I_APO, C); (I_PPO, C);
   (I_AO, [fHigh; fLow]);
   (I_Kdj, HLC); (I_Cci, HLC); (I_StochasticHeat, HLC); (I_SuperTrend, HLC); (I_PPST, HLC); (I_UTBot, HLC); (I_Keltner, HLC);
   (I_Stoch, HLC); (I_Williams, HLC); (I_Projection, HLC); (I_Ichimoku, HLC);
   (I_MFI, HLCV); (I_Chaikin, HLCV);
   (I_EMAVegas, [fClose; fBull])].
End Spec.

(** ** Proofs *)
Section Proofs.
Context {N : Num}.
Lemma same_any l (kl kl' : list Candle) : Forall2 (same_in l) kl kl' -> Forall2 (@CR _ _ (anytime l)) kl kl'.
Proof. induction 1 as [|k k' kl kl' H _ IH]; constructor; [|exact IH]. destruct H as (? & ? & ? & ? & ? & ?). constructor; cbn; auto. Qed.
Lemma uses_all l : @uses _ _ (@anytime N l) l.
Proof. intros f Hf. exact Hf. Qed.
Lemma bpi_eq l (v v' : list BPItem) : Forall2 (@bpiR _ _ (@anytime N l)) v v' -> v = v'.
Proof. induction 1 as [|[] [] ? ? (? & ? & ?)]; cbn in *; congruence. Qed.

Ltac unv := let v := fresh in let v' := fresh in let H := fresh in
  intros v v' H; destruct v, v';
  cbv [kdR macdR kdjR atrR vortexR heatR stR utR xoR vegasR adxR lrcR bandR bollR camR chaikinR ichiR ppoR projR bpR] in H; cbn in H;
  repeat match goal with H : _ /\ _ |- _ => destruct H | H : Forall2 bpiR _ _ |- _ => apply bpi_eq in H end; subst; reflexivity.
Ltac vrel := lazymatch goal with |- forall v v', fr _ _ _ _ -> _ => exact (fun v v' H => H) | |- forall v v', eq _ _ -> _ => exact (fun v v' H => H) | _ => unv end.
Ltac rows_lemma H := lazymatch goal with
  | |- RR _ (rows_of I_Ma _ _) _ => apply (Ma_s H)
  | |- RR _ (rows_of I_Sma _ _) _ => apply (Sma_i H)
  | |- RR _ (rows_of I_Ema _ _) _ => apply (Ema_i H)
  | |- RR _ (rows_of I_Dema _ _) _ => apply (Dema_i H)
  | |- RR _ (rows_of I_Rma _ _) _ => apply (Rma_i H)
  | |- RR _ (rows_of I_AiCoinCCI _ _) _ => apply (AiCoin_s H)
  | |- RR _ (rows_of I_Ulcer _ _) _ => apply (Ulcer_s H)
  | |- RR _ (rows_of I_Macd _ _) _ => apply (Macd_s H)
  | |- RR _ (rows_of I_TraderXO _ _) _ => apply (TraderXO_i H)
  | |- RR _ (rows_of I_EMAVegas _ _) _ => apply (Vegas_i H)
  | |- RR _ (rows_of I_Donchian _ _) _ => apply (Donchian_i H)
  | |- RR _ (rows_of I_Boll _ _) _ => apply (Boll_i H)
  | |- RR _ (rows_of I_APO _ _) _ => apply (APO_i H)
  | |- RR _ (rows_of I_PPO _ _) _ => apply (PPO_i H)
  | |- RR _ (rows_of I_Rsi _ _) _ => apply (Rsi_i H)
  | |- RR _ (rows_of I_StochRsi _ _) _ => apply (StochRsi_i H)
  | |- RR _ (rows_of I_AO _ _) _ => apply (AO_i H)
  | |- RR _ (rows_of I_Cci _ _) _ => apply (Cci_s H)
  | |- RR _ (rows_of I_Atr _ _) _ => apply (Atr_i H)
  | |- RR _ (rows_of I_Vortex _ _) _ => apply (Vortex_i H)
  | |- RR _ (rows_of I_StochasticHeat _ _) _ => apply (Heat_i H)
  | |- RR _ (rows_of I_ADX _ _) _ => apply (ADX_i H)
  | |- RR _ (rows_of I_UTBot _ _) _ => apply (UTBot_i H)
  | |- RR _ (rows_of I_Keltner _ _) _ => apply (Keltner_i H)
  | |- RR _ (rows_of I_Ichimoku _ _) _ => apply (Ichi_i H)
  | |- RR _ (rows_of I_Projection _ _) _ => apply (Proj_i H)
  | |- RR _ (rows_of I_Stoch _ _) _ => apply (Stoch_i H)
  | |- RR _ (rows_of I_Williams _ _) _ => apply (Williams_i H)
  | |- RR _ (rows_of I_Kdj _ _) _ => apply (Kdj_i H)
  | |- RR _ (rows_of I_SuperTrend _ _) _ => apply (SuperTrend_i H)
  | |- RR _ (rows_of I_PPST _ _) _ => apply (PPST_i H)
  | |- RR _ (rows_of I_Reversal _ _) _ => apply (Reversal_i H)
  | |- RR _ (rows_of I_Camarilla _ _) _ => apply (Camarilla_i H)
  | |- RR _ (rows_of I_LRC _ _) _ => apply (LRC_i H)
  | |- RR _ (rows_of I_BreakoutProbability _ _) _ => apply (BP_i H)
  | |- RR _ (rows_of I_CMF _ _) _ => apply (CMF_s H)
  | |- RR _ (rows_of I_MFI _ _) _ => apply (MFI_s H)
  | |- RR _ (rows_of I_AD _ _) _ => apply (AD_s H)
  | |- RR _ (rows_of I_Chaikin _ _) _ => apply (Chaikin_i H)
  | |- RR _ (rows_of I_EMV _ _) _ => apply (EMV_s H)
  | |- RR _ (rows_of I_Force _ _) _ => apply (Force_s H)
  | |- RR _ (rows_of I_NVI _ _) _ => apply (NVI_s H)
  | |- RR _ (rows_of I_VPT _ _) _ => apply (VPT_s H)
  | |- RR _ (rows_of I_Vwma _ _) _ => apply (Vwma_s H)
  | |- RR _ (rows_of I_Obv _ _) _ => apply (Obv_s H)
  | |- RR _ (rows_of I_VOsc _ _) _ => apply (VOsc_i H)
  end.
Ltac sides_lemma H := lazymatch goal with
  | |- sides_of I_Rsi _ _ = _ => apply (Rsi_sides H)
  | |- sides_of I_StochRsi _ _ = _ => apply (StochRsi_sides H)
  | |- sides_of I_Macd _ _ = _ => apply (Macd_sides H)
  | |- sides_of I_AiCoinCCI _ _ = _ => apply (AiCoin_sides H)
  | |- sides_of I_TraderXO _ _ = _ => apply (TraderXO_sides H)
  | |- sides_of I_EMAVegas _ _ = _ => apply (Vegas_sides H)
  | |- sides_of I_Donchian _ _ = _ => apply (Donchian_sides H)
  | |- sides_of I_Boll _ _ = _ => apply (Boll_sides H)
  | |- sides_of I_APO _ _ = _ => apply (APO_sides H)
  | |- sides_of I_PPO _ _ = _ => apply (PPO_sides H)
  | |- sides_of I_AO _ _ = _ => apply (AO_sides H)
  | |- sides_of I_Kdj _ _ = _ => apply (Kdj_sides H)
  | |- sides_of I_Cci _ _ = _ => apply (Cci_sides H)
  | |- sides_of I_StochasticHeat _ _ = _ => apply (Heat_sides H)
  | |- sides_of I_SuperTrend _ _ = _ => apply (SuperTrend_sides H)
  | |- sides_of I_PPST _ _ = _ => apply (PPST_sides H)
  | |- sides_of I_UTBot _ _ = _ => apply (UTBot_sides H)
  | |- sides_of I_Keltner _ _ = _ => apply (Keltner_sides H)
  | |- sides_of I_Stoch _ _ = _ => apply (Stoch_sides H)
  | |- sides_of I_Williams _ _ = _ => apply (Williams_sides H)
  | |- sides_of I_Projection _ _ = _ => apply (Proj_sides H)
  | |- sides_of I_Ichimoku _ _ = _ => apply (Ichi_sides H)
  | |- sides_of I_MFI _ _ = _ => apply (MFI_sides H)
  | |- sides_of I_Chaikin _ _ = _ => apply (Chaikin_sides H)
  end.
Lemma values_fields : forall (I : Indicator) (l : list field), In (I, l) value_fields ->
  forall p kl kl', Forall2 (same_in l) kl kl' -> values_of I p kl = values_of I p kl'.
Proof.
  intros I l HI p kl kl' H. apply same_any in H. pose proof (uses_all l) as U.
  cbv [value_fields] in HI. cbn in HI.
  repeat (destruct HI as [E|HI]; [injection E as <- <-|]); [..|contradiction].
  all: eapply (@vals_of _ (anytime _)).
  all: [> first [rows_lemma H | idtac] ..].
  all: try lazymatch goal with |- uses _ => exact U | |- forall v v', _ => vrel | |- loose => exact Logic.I | |- camEMA _ = _ => reflexivity end.
  - now right.
  - now repeat split.
  - now repeat split.
Qed.
Lemma signals_fields : forall (I : Indicator) (l : list field), In (I, l) signal_fields ->
  forall p kl kl', Forall2 (same_in l) kl kl' -> sides_of I p kl = sides_of I p kl'.
Proof.
  intros I l HI p kl kl' H. apply same_any in H. pose proof (uses_all l) as U.
  cbv [signal_fields] in HI. cbn in HI.
  repeat (destruct HI as [E|HI]; [injection E as <- <-|]); [..|contradiction].
  all: sides_lemma H.
  all: try lazymatch goal with |- uses _ => exact U | |- loose => exact Logic.I end.
  - now right.
  - now repeat split.
Qed.
Lemma same_same l (kl kl' : list Candle) : Forall2 (fun k k' => same_in l k k' /\ cTime k = cTime k') kl kl' ->
  Forall2 (@CR _ _ (sametime l)) kl kl'.
Proof. induction 1 as [|k k' kl kl' H _ IH]; constructor; [|exact IH]. destruct H as ((? & ? & ? & ? & ? & ?) & ?). constructor; cbn; auto. Qed.
End Proofs.

(** ** Theorems *)
(** Two candle series that agree in the listed fields give the same values: neither the amount, the count, the change, the
    times nor the other fields matter. *)
Theorem C88_values : forall (N : Num) (I : @Indicator N) (l : list field), In (I, l) value_fields ->
  forall (p : Param I) (kl kl' : list Candle),
  Forall2 (same_in l) kl kl' -> values_of I p kl = values_of I p kl'.
Proof. exact @values_fields. Qed.
Print Assumptions C88_values.
(** The table covers every indicator of the library (SmartMoneyConcepts has its own theorems). *)
Theorem C88_values_complete : forall (N : Num) (I : @Indicator N), In I all_indicators -> exists l, In (I, l) value_fields.
Proof.
  intros N I HI. cbn in HI.
  repeat (destruct HI as [<-|HI]; [eexists; cbv [value_fields]; cbn; repeat (first [left; reflexivity|right])|]). contradiction.
Qed.
Print Assumptions C88_values_complete.
(** The same for the signals. *)
Theorem C88_signals : forall (N : Num) (I : @Indicator N) (l : list field), In (I, l) signal_fields ->
  forall (p : Param I) (kl kl' : list Candle),
  Forall2 (same_in l) kl kl' -> sides_of I p kl = sides_of I p kl'.
Proof. exact @signals_fields. Qed.
Print Assumptions C88_signals.
(** The signals of Camarilla depend on open, high, low, close and the times of the candles and of the daily candles. *)
Theorem C88_signals_camarilla : forall (N : Num) (e : Z) (same_day : Z -> Z -> bool) (days days' kl kl' : list (@Candle N)),
  let same k k' := same_in [fOpen; fHigh; fLow; fClose] k k' /\ cTime k = cTime k' in
  Forall2 same kl kl' -> Forall2 same days days' ->
  sides_of I_Camarilla (mkCamP e days same_day) kl = sides_of I_Camarilla (mkCamP e days' same_day) kl'.
Proof.
  intros N e sd days days' kl kl' same H D. apply same_same in H. apply same_same in D.
  apply (Camarilla_sides H); [intros f Hf; exact Hf|]. repeat split; [exact D|]. cbn. now intros s s' t t' <- <-.
Qed.
Print Assumptions C88_signals_camarilla.
(** With the previous theorem the table of signals covers every strategy. *)
Theorem C88_signals_complete : forall (N : Num) (I : @Indicator N), In I all_indicators -> Sides I <> None ->
  I = I_Camarilla \/ exists l, In (I, l) signal_fields.
Proof.
  intros N I HI HS. cbn in HI.
  repeat (destruct HI as [<-|HI]; [first [left; reflexivity | exfalso; now apply HS
    | right; eexists; cbv [signal_fields]; cbn; repeat (first [left; reflexivity|right])]|]). contradiction.
Qed.
Print Assumptions C88_signals_complete.

(** ** Every field listed does matter (float64) *)
Definition ex_candle (i : Z) (f : Z -> Z -> Z) : @Candle EX :=
  let b := 1000 + (if i <? 14 then - 12 * i else 10 * (i - 20)) + (i * i * 7) mod 23 in
  mkCandle (ofZ (f 6 i)) 0 (ofZ (b + f 1 i)) (ofZ (b + (i * i * 3) mod 7 - 3 + f 4 i)) (ofZ (b - 4 + f 3 i)) (ofZ (b + 4 + f 2 i))
    (ofZ (1000 + (i * i * 31) mod 101 + f 5 i)) (ofZ 0) true (1600000000 + 60 * i).
Definition ex_series (g : Z) : list (@Candle EX) :=
  map (fun i => ex_candle i (fun h i => if h =? g then (i * i * 5 + i * 11) mod 97 else 0)) (map Z.of_nat (seq 0 36)).
Definition nr (f : field) : Z := match f with fOpen => 1 | fHigh => 2 | fLow => 3 | fClose => 4 | fVolume => 5 | fBull => 6 end.

(** deciding that two results differ *)
Definition sf_eqb (x y : spec_float) : bool :=
  match x, y with
  | S754_zero a, S754_zero b | S754_infinity a, S754_infinity b => Bool.eqb a b
  | S754_nan, S754_nan => true
  | S754_finite a m e, S754_finite b n f => Bool.eqb a b && (m =? n)%positive && (e =? f)
  | _, _ => false
  end.
Fixpoint list_eqb {A} (e : A -> A -> bool) (l m : list A) : bool :=
  match l, m with [], [] => true | x :: l, y :: m => e x y && list_eqb e l m | _, _ => false end.
Definition out_eqb (x y : res (list (list spec_float))) : bool :=
  match x, y with Ok l, Ok m => list_eqb (list_eqb sf_eqb) l m | Panic, Panic => true | _, _ => false end.
Lemma sf_refl x : sf_eqb x x = true.
Proof. destruct x; cbn; rewrite ?Bool.eqb_reflx, ?Pos.eqb_refl, ?Z.eqb_refl; reflexivity. Qed.
Lemma list_refl A (e : A -> A -> bool) l : (forall x, e x x = true) -> list_eqb e l l = true.
Proof. intros H. induction l as [|x l IH]; cbn; [reflexivity|]. now rewrite H, IH. Qed.
Lemma differ (I : @Indicator EX) (g : Val I -> list spec_float) p kl kl' :
  out_eqb (rmap (map g) (values_of I p kl)) (rmap (map g) (values_of I p kl')) = false -> values_of I p kl <> values_of I p kl'.
Proof.
  intros H E. rewrite E in H. destruct (values_of I p kl') as [l|]; cbn in H; [|discriminate].
  rewrite list_refl in H; [discriminate|]. intros x. apply list_refl, sf_refl.
Qed.
(** small parameters for the examples *)
Ltac try_p g q := exists q; apply (differ _ g); vm_compute; reflexivity.
Ltac witness := lazymatch goal with
  | |- exists p : Param I_Ma, _ => try_p (fun v : Val (@I_Ma EX) => [v]) 2
  | |- exists p : Param I_Sma, _ => try_p (fun v : Val (@I_Sma EX) => [v]) 2
  | |- exists p : Param I_Ema, _ => try_p (fun v : Val (@I_Ema EX) => [v]) 2
  | |- exists p : Param I_Dema, _ => try_p (fun v : Val (@I_Dema EX) => [v]) 2
  | |- exists p : Param I_Rma, _ => try_p (fun v : Val (@I_Rma EX) => [v]) 2
  | |- exists p : Param I_AiCoinCCI, _ => try_p (fun v : Val (@I_AiCoinCCI EX) => [v]) 2
  | |- exists p : Param I_Ulcer, _ => try_p (fun v : Val (@I_Ulcer EX) => [v]) 2
  | |- exists p : Param I_Donchian, _ => try_p (fun v : Val (@I_Donchian EX) => [bUpper v]) 2
  | |- exists p : Param I_Rsi, _ => try_p (fun v : Val (@I_Rsi EX) => [v]) 2
  | |- exists p : Param I_Atr, _ => try_p (fun v : Val (@I_Atr EX) => [aTR v]) 2
  | |- exists p : Param I_Vortex, _ => try_p (fun v : Val (@I_Vortex EX) => [vPlus v; vMinus v]) 2
  | |- exists p : Param I_Keltner, _ => try_p (fun v : Val (@I_Keltner EX) => [bUpper v]) 2
  | |- exists p : Param I_Stoch, _ => try_p (fun v : Val (@I_Stoch EX) => [kdK v]) 2
  | |- exists p : Param I_Williams, _ => try_p (fun v : Val (@I_Williams EX) => [v]) 2
  | |- exists p : Param I_Kdj, _ => try_p (fun v : Val (@I_Kdj EX) => [kK v]) 2
  | |- exists p : Param I_CMF, _ => try_p (fun v : Val (@I_CMF EX) => [v]) 2
  | |- exists p : Param I_MFI, _ => try_p (fun v : Val (@I_MFI EX) => [v]) 2
  | |- exists p : Param I_EMV, _ => try_p (fun v : Val (@I_EMV EX) => [v]) 2
  | |- exists p : Param I_Force, _ => try_p (fun v : Val (@I_Force EX) => [v]) 2
  | |- exists p : Param I_VPT, _ => try_p (fun v : Val (@I_VPT EX) => [v]) 2
  | |- exists p : Param I_Vwma, _ => try_p (fun v : Val (@I_Vwma EX) => [v]) 2
  | |- exists p : Param I_AO, _ => try_p (fun v : Val (@I_AO EX) => [v]) tt
  | |- exists p : Param I_Reversal, _ => try_p (fun v : Val (@I_Reversal EX) => [b_ofZ v]) tt
  | |- exists p : Param I_NVI, _ => try_p (fun v : Val (@I_NVI EX) => [v]) tt
  | |- exists p : Param I_AD, _ => try_p (fun v : Val (@I_AD EX) => [v]) tt
  | |- exists p : Param I_Obv, _ => try_p (fun v : Val (@I_Obv EX) => [v]) tt
  | |- exists p : Param I_Macd, _ => try_p (fun v : Val (@I_Macd EX) => [mDIF v; mDEA v; mMacd v]) (mkMacdP 2 3 4)
  | |- exists p : Param I_TraderXO, _ => try_p (fun v : Val (@I_TraderXO EX) => [xFast v; xSlow v]) (mkXOP 2 3)
  | |- exists p : Param I_EMAVegas, _ => try_p (fun v : Val (@I_EMAVegas EX) => [gV v]) (mkVegasP 2 3 4 5 6)
  | |- exists p : Param I_Boll, _ => try_p (fun v : Val (@I_Boll EX) => [blUpper v]) (mkBollP 2 2)
  | |- exists p : Param I_APO, _ => try_p (fun v : Val (@I_APO EX) => [v]) (mkFS 2 3)
  | |- exists p : Param I_PPO, _ => try_p (fun v : Val (@I_PPO EX) => [ppoV v]) (mkPPOP 2 3 2)
  | |- exists p : Param I_StochRsi, _ => try_p (fun v : Val (@I_StochRsi EX) => [kdK v]) (mkStochRsiP 2 2 3 3)
  | |- exists p : Param I_Cci, _ => try_p (fun v : Val (@I_Cci EX) => [v]) (mkCciP 3 2)
  | |- exists p : Param I_StochasticHeat, _ => try_p (fun v : Val (@I_StochasticHeat EX) => [hvFast v]) (mkHeatP 1 2 2 2 2)
  | |- exists p : Param I_ADX, _ => try_p (fun v : Val (@I_ADX EX) => [axPlus v; axMinus v; axADX v]) (mkAdxP 2 2)
  | |- exists p : Param I_UTBot, _ => try_p (fun v : Val (@I_UTBot EX) => [uClose v; uValue v]) (mkUTP 2 2)
  | |- exists p : Param I_Ichimoku, _ => try_p (fun v : Val (@I_Ichimoku EX) => [iConv v; iBase v; iLag v]) (mkIchiP 2 3 2)
  | |- exists p : Param I_Projection, _ => try_p (fun v : Val (@I_Projection EX) => [pjPo v]) (mkProjP 2 2)
  | |- exists p : Param I_SuperTrend, _ => try_p (fun v : Val (@I_SuperTrend EX) => [sUp v; sDn v]) (mkSTP 2 1 true)
  | |- exists p : Param I_PPST, _ => try_p (fun v : Val (@I_PPST EX) => [sUp v; sDn v]) (@mkPPP EX 1 2 (@ofZ EX 1))
  | |- exists p : Param I_Camarilla, _ => try_p (fun v : Val (@I_Camarilla EX) => [caH1 v; caEMA v; caPivot v]) (@mkCamP EX 2 [] (fun _ _ => true))
  | |- exists p : Param I_LRC, _ => try_p (fun v : Val (@I_LRC EX) => [lcOpen v; lcHigh v; lcLow v; lcClose v]) (mkLrcP 2 2 true)
  | |- exists p : Param I_BreakoutProbability, _ => try_p (fun v : Val (@I_BreakoutProbability EX) => bvWin v :: bvLoss v :: map biPrice (bvList v)) (@mkBPP EX (@ofZ EX 1) 5)
  | |- exists p : Param I_Chaikin, _ => try_p (fun v : Val (@I_Chaikin EX) => [coAD v]) (mkFS 2 3)
  | |- exists p : Param I_VOsc, _ => try_p (fun v : Val (@I_VOsc EX) => [v]) (mkFS 2 3)
  end.
Theorem C88_fields_needed : forall (I : @Indicator EX) (l : list field), In (I, l) value_fields -> forall f, In f l ->
  exists (p : Param I) (kl kl' : list Candle),
    Forall2 (fun k k' => cTime k = cTime k' /\ forall g, g <> f -> same_in [g] k k') kl kl' /\ values_of I p kl <> values_of I p kl'.
Proof.
  intros I l HI f Hf.
  cut (exists p : Param I, values_of I p (ex_series 0) <> values_of I p (ex_series (nr f))).
  { intros [p Hp]. exists p, (ex_series 0), (ex_series (nr f)). split; [|exact Hp].
    unfold ex_series. generalize (map Z.of_nat (seq 0 36)). intros is. induction is as [|i is IH]; cbn [map]; constructor; [|exact IH].
    split; [reflexivity|]. intros g Hg. destruct f, g; try (exfalso; now apply Hg);
      repeat split; intros [E|[]]; try discriminate E; reflexivity. }
  cbv [value_fields] in HI. cbn in HI.
  repeat (destruct HI as [E|HI]; [injection E as <- <-; cbn in Hf; repeat (destruct Hf as [<-|Hf]); try contradiction
   |]); [..|contradiction].
  all: witness.
Qed.
Print Assumptions C88_fields_needed.

(** two series that agree in the closes only: the hypotheses of the theorems are met, and the moving average is the same *)
Example C88_hyp :
  let k c o t : @Candle EX := mkCandle (ofZ o) o (ofZ o) (ofZ c) (ofZ (o - 5)) (ofZ (o + 5)) (ofZ (7 * o)) (ofZ o) true t in
  let kl := [k 10 3 60; k 12 4 120; k 11 5 180] in let kl' := [k 10 8 7; k 12 9 8; k 11 2 9] in
  In (@I_Ma EX, [fClose]) value_fields /\ In (@I_Macd EX, [fClose]) signal_fields /\
  Forall2 (same_in [fClose]) kl kl' /\ kl <> kl' /\ values_of I_Ma 2 kl <> Ok [].
Proof.
  split; [|split; [|split; [|split]]].
  - cbv [value_fields]. cbn [In]. repeat (first [left; reflexivity|right]).
  - cbv [signal_fields]. cbn [In]. repeat (first [left; reflexivity|right]).
  - repeat constructor; intros H; try reflexivity; destruct H as [H|[]]; discriminate H.
  - intros H. apply (f_equal (map cTime)) in H. discriminate H.
  - vm_compute. discriminate.
Qed.
