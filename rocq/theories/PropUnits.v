(** * PropUnits: a change of units (currency, tick size, lot size).

    Quoting prices in another currency multiplies them all by a constant, counting
    volume in another lot size multiplies the volumes.  In exact arithmetic (XReal.v)
    such a change does not alter a signal, and changes the values of an indicator by
    the factor its dimension says; except where the code compares prices with a
    built-in constant, or adds a percentage to a price. *)
From Coq Require Import String Reals Lra SpecFloat.
From Verif Require Import Base Num B64 XReal Containers Ta Regression Sides Klines IndBase IndTrend IndChannel IndVolume IndOsc IndAll
  Sim SimTa SimInd SimAll SimRest FieldUse Units Lits.
Set Implicit Arguments.
Open Scope Z_scope.

(** ** Specification *)
Section Spec.
Context {N : Num}.
(** the same market with prices in units of 1/a and volumes in units of 1/b *)
Definition rescale (a b : F) (k : Candle) : Candle :=
  mkCandle ((a *~ b) *~ cAmount k) (cCount k) (a *~ cOpen k) (a *~ cClose k) (a *~ cLow k) (a *~ cHigh k) (b *~ cVolume k)
    (cChange k) (cBull k) (cTime k).
Definition values_of (I : Indicator) (p : Param I) (kl : list Candle) : res (list (Val I)) :=
  rmap (map (@rVal (Val I))) (rows_of I p kl).
(** an indicator, and what happens to a row of its values *)
Record Scaling := mkScaling { scI : Indicator; scV : Val scI -> Val scI }.

(** the effect of prices times [a], volumes times [b] *)
Definition scalings (a b : F) : list Scaling :=
  let id (v : F) := v in
  [ (** prices *)
    mkScaling I_Ma (fmul a); mkScaling I_Sma (fmul a); mkScaling I_Ema (fmul a); mkScaling I_Dema (fmul a);
    mkScaling I_Rma (fmul a); mkScaling I_Vwma (fmul a); mkScaling I_APO (fmul a); mkScaling I_AO (fmul a);
    mkScaling I_Macd (fun v => mkMacdV (a *~ mDIF v) (a *~ mDEA v) (a *~ mMacd v));
    mkScaling I_Atr (fun v => mkAtrV (a *~ aTR v) (a *~ aAtr v));
    mkScaling I_UTBot (fun v => mkUTV (a *~ uClose v) (a *~ uValue v));
    mkScaling I_TraderXO (fun v => mkXOV (a *~ xFast v) (a *~ xSlow v));
    mkScaling I_EMAVegas (fun v => mkVegasV (a *~ gV v) (a *~ gS1 v) (a *~ gS2 v) (a *~ gL1 v) (a *~ gL2 v));
    mkScaling I_LRC (fun v => mkLrcV (a *~ lcOpen v) (a *~ lcClose v) (a *~ lcHigh v) (a *~ lcLow v) (a *~ lcSignal v));
    mkScaling I_PPST (fun v => mkSTV (a *~ sUp v) (a *~ sUpBegin v) (a *~ sDn v) (a *~ sDnBegin v));
    mkScaling I_Donchian (fun v => mkBand (a *~ bUpper v) (a *~ bMiddle v) (a *~ bLower v));
    mkScaling I_Keltner (fun v => mkBand (a *~ bUpper v) (a *~ bMiddle v) (a *~ bLower v));
    mkScaling I_Boll (fun v => mkBollV (a *~ blUpper v) (a *~ blMiddle v) (a *~ blLower v) (a *~ blMD v));
    mkScaling I_Ichimoku (fun v => mkIchiV (a *~ iConv v) (a *~ iBase v) (a *~ iSpanA v) (a *~ iSpanB v) (a *~ iLag v));
    mkScaling I_Camarilla (fun v => mkCamV (a *~ caEMA v) (a *~ caPivot v)
      (a *~ caH1 v) (a *~ caH2 v) (a *~ caH3 v) (a *~ caH4 v) (a *~ caH5 v) (a *~ caH6 v)
      (a *~ caL1 v) (a *~ caL2 v) (a *~ caL3 v) (a *~ caL4 v) (a *~ caL5 v) (a *~ caL6 v));
    (** percentages and ratios: unchanged; the probabilities too, their price levels scale *)
    mkScaling I_Cci id; mkScaling I_AiCoinCCI id; mkScaling I_Ulcer id; mkScaling I_CMF id; mkScaling I_MFI id;
    mkScaling I_NVI id; mkScaling I_VOsc id; mkScaling I_Williams id;
    mkScaling I_Stoch (fun v => v); mkScaling I_Vortex (fun v => v); mkScaling I_StochasticHeat (fun v => v);
    mkScaling I_ADX (fun v => v); mkScaling I_PPO (fun v => v); mkScaling I_Projection (fun v => v);
    mkScaling I_Reversal (fun v => v);
    mkScaling I_BreakoutProbability (fun v => mkBPV
      (map (fun i => mkBPItem (a *~ biPrice i) (biPer i) (biUp i)) (bvList v)) (bvWin v) (bvLoss v));
    (** volumes *)
    mkScaling I_AD (fmul b); mkScaling I_Obv (fmul b); mkScaling I_VPT (fmul b);
    mkScaling I_Chaikin (fun v => mkChaikinV (b *~ coValue v) (b *~ coAD v));
    (** price times volume, price squared by volume *)
    mkScaling I_Force (fmul (a *~ b)); mkScaling I_EMV (fmul ((a *~ a) /~ b)) ].
(** the strategies whose signals do not change *)
Definition unit_free : list Indicator :=
  [I_Macd; I_AiCoinCCI; I_TraderXO; I_Boll; I_Donchian; I_APO; I_PPO; I_AO; I_Cci; I_StochasticHeat; I_PPST; I_UTBot; I_Keltner;
   I_Stoch; I_Williams; I_Projection; I_Ichimoku; I_MFI; I_Chaikin; I_EMAVegas].
End Spec.

(** ** Proofs *)
Section Proofs.
Variables ra rb : R.
Hypothesis Ha : (0 < ra)%R.
Hypothesis Hb : (0 < rb)%R.
Let a : @F XR := Fin ra.
Let b : @F XR := Fin rb.
Let SM := scale_sim Ha Hb.
Lemma unit_10 : unit_of ra rb 1 0 = ra.
Proof. unfold unit_of. simpl. lra. Qed.
Lemma unit_01 : unit_of ra rb 0 1 = rb.
Proof. unfold unit_of. simpl. lra. Qed.
Lemma unit_11 : unit_of ra rb 1 1 = (ra * rb)%R.
Proof. unfold unit_of. simpl. lra. Qed.
Lemma unit_2m : unit_of ra rb 2 (-1) = (ra * ra / rb)%R.
Proof. unfold unit_of. simpl. field. lra. Qed.
Lemma fr00 (x y : @F XR) : @fr _ _ SM 0 0 x y -> y = x.
Proof. cbn. intros ->. now rewrite unit_00, xscale_1. Qed.
Lemma fr10 (x y : @F XR) : @fr _ _ SM 1 0 x y -> y = fmul a x.
Proof. cbn -[xscale]. intros ->. rewrite unit_10. now apply xscale_mul. Qed.
Lemma fr01 (x y : @F XR) : @fr _ _ SM 0 1 x y -> y = fmul b x.
Proof. cbn -[xscale]. intros ->. rewrite unit_01. now apply xscale_mul. Qed.
Lemma fr11 (x y : @F XR) : @fr _ _ SM 1 1 x y -> y = fmul (a *~ b) x.
Proof. cbn -[xscale]. intros ->. rewrite unit_11. apply xscale_mul. nra. Qed.
Lemma fr2m (x y : @F XR) : @fr _ _ SM 2 (-1) x y -> y = fmul ((a *~ a) /~ b) x.
Proof.
  cbn -[xscale]. intros ->. rewrite unit_2m. destruct (Reqb_spec rb 0); [lra|]. apply xscale_mul.
  apply Rdiv_lt_0_compat; nra.
Qed.
Lemma fr_00 (x : @F XR) : @fr _ _ SM 0 0 x x.
Proof. cbn. now rewrite unit_00, xscale_1. Qed.
Lemma rescale_cr kl : Forall2 (@CR _ _ SM) kl (map (rescale a b) kl).
Proof.
  induction kl as [|k kl IH]; cbn [map]; constructor; [|exact IH].
  constructor; intros; try reflexivity; cbn -[xscale xmul]; rewrite ?unit_10, ?unit_01; symmetry; now apply xscale_mul.
Qed.
Lemma u_all l : @uses _ _ SM l.
Proof. intros f _. exact Logic.I. Qed.
Lemma scaled_of (I : @Indicator XR) (P : Val I -> Val I -> Prop) (s : Val I -> Val I) p p' kl kl' :
  (forall v v', P v v' -> v' = s v) -> RR (Forall2 (@rowR XR XR SM (Val I) (Val I) P)) (rows_of I p kl) (rows_of I p' kl') ->
  values_of I p' kl' = rmap (map s) (values_of I p kl).
Proof.
  intros HP H. unfold values_of. revert H. destruct (rows_of I p kl) as [d|], (rows_of I p' kl') as [d'|]; cbn; try easy.
  intros H. f_equal. induction H as [|r r' d d' [_ Hr] _ IH]; cbn [map]; [reflexivity|]. now rewrite IH, (HP _ _ Hr).
Qed.
Lemma bpi_scale (v v' : list BPItem) : Forall2 (@bpiR _ _ SM) v v' ->
  v' = map (fun i => mkBPItem (a *~ biPrice i) (biPer i) (biUp i)) v.
Proof.
  induction 1 as [|[] [] l l' (H1 & H2 & H3) H IH]; cbn [map]; [reflexivity|]. apply fr10 in H1. apply fr00 in H2. cbn -[fmul] in *. now subst.
Qed.
Ltac unv := let v := fresh in let v' := fresh in let H := fresh in
  intros v v' H; destruct v, v';
  cbv [kdR macdR kdjR atrR vortexR heatR stR utR xoR vegasR adxR lrcR bandR bollR camR chaikinR ichiR ppoR projR bpR] in H; cbn -[fr fmul] in H;
  repeat match goal with H : _ /\ _ |- _ => destruct H | H : Forall2 bpiR _ _ |- _ => apply bpi_scale in H
   | H : fr 0 0 _ _ |- _ => apply fr00 in H | H : fr 1 0 _ _ |- _ => apply fr10 in H | H : fr 0 1 _ _ |- _ => apply fr01 in H end;
  subst; reflexivity.
Ltac vrel := lazymatch goal with
  | |- forall v v', fr 0 0 _ _ -> _ => exact fr00 | |- forall v v', fr 1 0 _ _ -> _ => exact fr10
  | |- forall v v', fr 0 1 _ _ -> _ => exact fr01 | |- forall v v', fr 1 1 _ _ -> _ => exact fr11
  | |- forall v v', fr 2 _ _ _ -> _ => exact fr2m
  | |- forall v v', eq _ _ -> _ => exact (fun v v' H => eq_sym H) | _ => unv end.
Ltac rows_lemma H := lazymatch goal with
  | |- RR _ (rows_of I_Ma _ _) _ => apply (Ma_s H)
  | |- RR _ (rows_of I_Sma _ _) _ => apply (Sma_i H)
  | |- RR _ (rows_of I_Ema _ _) _ => apply (Ema_i H)
  | |- RR _ (rows_of I_Dema _ _) _ => apply (Dema_i H)
  | |- RR _ (rows_of I_Rma _ _) _ => apply (Rma_i H)
  | |- RR _ (rows_of I_AiCoinCCI _ _) _ => apply (AiCoin_s H)
  | |- RR _ (rows_of I_Ulcer _ _) _ => apply (Ulcer_s H)
  | |- RR _ (rows_of I_Macd _ _) _ => apply (Macd_s H)
  | |- RR _ (rows_of I_TraderXO _ _) _ => apply (TraderXO_i H)
  | |- RR _ (rows_of I_EMAVegas _ _) _ => apply (Vegas_i H)
  | |- RR _ (rows_of I_Donchian _ _) _ => apply (Donchian_i H)
  | |- RR _ (rows_of I_Boll _ _) _ => apply (Boll_i H)
  | |- RR _ (rows_of I_APO _ _) _ => apply (APO_i H)
  | |- RR _ (rows_of I_PPO _ _) _ => apply (PPO_i H)
  | |- RR _ (rows_of I_Rsi _ _) _ => apply (Rsi_i H)
  | |- RR _ (rows_of I_StochRsi _ _) _ => apply (StochRsi_i H)
  | |- RR _ (rows_of I_AO _ _) _ => apply (AO_i H)
  | |- RR _ (rows_of I_Cci _ _) _ => apply (Cci_s H)
  | |- RR _ (rows_of I_Atr _ _) _ => apply (Atr_i H)
  | |- RR _ (rows_of I_Vortex _ _) _ => apply (Vortex_i H)
  | |- RR _ (rows_of I_StochasticHeat _ _) _ => apply (Heat_i H)
  | |- RR _ (rows_of I_ADX _ _) _ => apply (ADX_i H)
  | |- RR _ (rows_of I_UTBot _ _) _ => apply (UTBot_i H)
  | |- RR _ (rows_of I_Keltner _ _) _ => apply (Keltner_i H)
  | |- RR _ (rows_of I_Ichimoku _ _) _ => apply (Ichi_i H)
  | |- RR _ (rows_of I_Projection _ _) _ => apply (Proj_i H)
  | |- RR _ (rows_of I_Stoch _ _) _ => apply (Stoch_i H)
  | |- RR _ (rows_of I_Williams _ _) _ => apply (Williams_i H)
  | |- RR _ (rows_of I_Kdj _ _) _ => apply (Kdj_i H)
  | |- RR _ (rows_of I_SuperTrend _ _) _ => apply (SuperTrend_i H)
  | |- RR _ (rows_of I_PPST _ _) _ => apply (PPST_i H)
  | |- RR _ (rows_of I_Reversal _ _) _ => apply (Reversal_i H)
  | |- RR _ (rows_of I_Camarilla _ _) _ => apply (Camarilla_i H)
  | |- RR _ (rows_of I_LRC _ _) _ => apply (LRC_i H)
  | |- RR _ (rows_of I_BreakoutProbability _ _) _ => apply (BP_i H)
  | |- RR _ (rows_of I_CMF _ _) _ => apply (CMF_s H)
  | |- RR _ (rows_of I_MFI _ _) _ => apply (MFI_s H)
  | |- RR _ (rows_of I_AD _ _) _ => apply (AD_s H)
  | |- RR _ (rows_of I_Chaikin _ _) _ => apply (Chaikin_i H)
  | |- RR _ (rows_of I_EMV _ _) _ => apply (EMV_s H)
  | |- RR _ (rows_of I_Force _ _) _ => apply (Force_s H)
  | |- RR _ (rows_of I_NVI _ _) _ => apply (NVI_s H)
  | |- RR _ (rows_of I_VPT _ _) _ => apply (VPT_s H)
  | |- RR _ (rows_of I_Vwma _ _) _ => apply (Vwma_s H)
  | |- RR _ (rows_of I_Obv _ _) _ => apply (Obv_s H)
  | |- RR _ (rows_of I_VOsc _ _) _ => apply (VOsc_i H)
  end.
Ltac sides_lemma H := lazymatch goal with
  | |- sides_of I_Rsi _ _ = _ => apply (Rsi_sides H)
  | |- sides_of I_StochRsi _ _ = _ => apply (StochRsi_sides H)
  | |- sides_of I_Macd _ _ = _ => apply (Macd_sides H)
  | |- sides_of I_AiCoinCCI _ _ = _ => apply (AiCoin_sides H)
  | |- sides_of I_TraderXO _ _ = _ => apply (TraderXO_sides H)
  | |- sides_of I_EMAVegas _ _ = _ => apply (Vegas_sides H)
  | |- sides_of I_Donchian _ _ = _ => apply (Donchian_sides H)
  | |- sides_of I_Boll _ _ = _ => apply (Boll_sides H)
  | |- sides_of I_APO _ _ = _ => apply (APO_sides H)
  | |- sides_of I_PPO _ _ = _ => apply (PPO_sides H)
  | |- sides_of I_AO _ _ = _ => apply (AO_sides H)
  | |- sides_of I_Kdj _ _ = _ => apply (Kdj_sides H)
  | |- sides_of I_Cci _ _ = _ => apply (Cci_sides H)
  | |- sides_of I_StochasticHeat _ _ = _ => apply (Heat_sides H)
  | |- sides_of I_SuperTrend _ _ = _ => apply (SuperTrend_sides H)
  | |- sides_of I_PPST _ _ = _ => apply (PPST_sides H)
  | |- sides_of I_UTBot _ _ = _ => apply (UTBot_sides H)
  | |- sides_of I_Keltner _ _ = _ => apply (Keltner_sides H)
  | |- sides_of I_Stoch _ _ = _ => apply (Stoch_sides H)
  | |- sides_of I_Williams _ _ = _ => apply (Williams_sides H)
  | |- sides_of I_Projection _ _ = _ => apply (Proj_sides H)
  | |- sides_of I_Ichimoku _ _ = _ => apply (Ichi_sides H)
  | |- sides_of I_MFI _ _ = _ => apply (MFI_sides H)
  | |- sides_of I_Chaikin _ _ = _ => apply (Chaikin_sides H)
  end.
Lemma scaled_values : forall S, In S (scalings a b) -> forall (p : Param (scI S)) kl,
  values_of (scI S) p (map (rescale a b) kl) = rmap (map (scV S)) (values_of (scI S) p kl).
Proof.
  intros S HS p kl. pose proof (rescale_cr kl) as H. pose proof (@u_all) as U.
  unfold scalings in HS. cbv zeta in HS. cbn [In] in HS.
  repeat (destruct HS as [<-|HS]; [cbn [scI scV] in *|]); [..|contradiction].
  all: eapply scaled_of.
  all: [> first [rows_lemma H | idtac] ..].
  all: try lazymatch goal with |- uses _ => apply U | |- forall v v', _ => vrel | |- camEMA _ = _ => reflexivity end.
  - repeat split. apply fr_00.
  - repeat split. apply fr_00.
Qed.
Lemma scaled_signals : forall I, In I unit_free -> forall (p : Param I) kl, sides_of I p (map (rescale a b) kl) = sides_of I p kl.
Proof.
  intros I HI p kl. pose proof (rescale_cr kl) as H. pose proof (@u_all) as U. symmetry.
  unfold unit_free in HI. cbn [In] in HI.
  repeat (destruct HI as [<-|HI]; [|]); [..|contradiction].
  all: sides_lemma H.
  all: try lazymatch goal with |- uses _ => apply U end.
  repeat split. apply fr_00.
Qed.
End Proofs.

(** ** Theorems *)
(** Multiplying all prices by [a] and all volumes by [b] multiplies the values as the table says (exact arithmetic, any candles,
    infinities and NaN included). *)
Theorem C87_values : forall (a b : R), (0 < a)%R -> (0 < b)%R ->
  forall S : Scaling, In S (scalings (N := XR) (Fin a) (Fin b)) -> forall (p : Param (scI S)) (kl : list Candle),
  values_of (scI S) p (map (rescale (N := XR) (Fin a) (Fin b)) kl) = rmap (map (scV S)) (values_of (scI S) p kl).
Proof. exact scaled_values. Qed.
Print Assumptions C87_values.
(** SuperTrend, with the averaged true range of prices (ChangeATR set) *)
Theorem C87_supertrend : forall (a b : R), (0 < a)%R -> (0 < b)%R -> forall (period mult : Z) (kl : list (Candle (N := XR))),
  let p := mkSTP period mult true in let x : @F XR := Fin a in
  values_of I_SuperTrend p (map (rescale (N := XR) (Fin a) (Fin b)) kl) =
    rmap (map (fun v => mkSTV (x *~ sUp v) (x *~ sUpBegin v) (x *~ sDn v) (x *~ sDnBegin v))) (values_of I_SuperTrend p kl) /\
  sides_of I_SuperTrend p (map (rescale (N := XR) (Fin a) (Fin b)) kl) = sides_of I_SuperTrend p kl.
Proof.
  intros a b Ha Hb period mult kl p x. pose proof (rescale_cr Ha Hb kl) as H. split.
  - eapply scaled_of with (P := @stR _ _ (scale_sim Ha Hb)); [|apply (SuperTrend_i H); [apply u_all|now left]].
    intros [] [] (H1 & H2 & H3 & H4). apply fr10 in H1, H2, H3, H4. cbn -[fmul] in *. now subst.
  - symmetry. apply (SuperTrend_sides H); [apply u_all|now left].
Qed.
Print Assumptions C87_supertrend.
(** The signals do not change. *)
Theorem C87_signals : forall (a b : R), (0 < a)%R -> (0 < b)%R ->
  forall I : Indicator, In I unit_free -> forall (p : Param I) (kl : list Candle),
  sides_of I p (map (rescale (N := XR) (Fin a) (Fin b)) kl) = sides_of I p kl.
Proof. exact scaled_signals. Qed.
Print Assumptions C87_signals.
(** Camarilla: the daily candles it compares with are quoted in the same units. *)
Theorem C87_signals_camarilla : forall (a b : R), (0 < a)%R -> (0 < b)%R ->
  forall (e : Z) (same_day : Z -> Z -> bool) (days kl : list (Candle (N := XR))),
  let f := rescale (N := XR) (Fin a) (Fin b) in
  sides_of I_Camarilla (mkCamP e (map f days) same_day) (map f kl) = sides_of I_Camarilla (mkCamP e days same_day) kl.
Proof.
  intros a b Ha Hb e sd days kl f. symmetry. apply (Camarilla_sides (rescale_cr Ha Hb kl)); [apply u_all|].
  repeat split; [apply rescale_cr|]. cbn. now intros s s' t t' <- <-.
Qed.
Print Assumptions C87_signals_camarilla.
Lemma sc_in (l : list (@Scaling XR)) I : In I (map (@scI XR) l) -> exists S, In S l /\ scI S = I.
Proof. intros H. apply in_map_iff in H as (S & H1 & H2). eauto. Qed.
(** Together with the counterexamples below this is every indicator and every strategy. *)
Theorem C87_complete : forall I : @Indicator XR, In I all_indicators ->
  (I = I_Rsi \/ I = I_StochRsi \/ I = I_Kdj \/ I = I_SuperTrend \/ forall a b, exists S, In S (scalings a b) /\ scI S = I) /\
  (Sides I = None \/ I = I_Rsi \/ I = I_StochRsi \/ I = I_Kdj \/ I = I_SuperTrend \/ I = I_Camarilla \/ In I unit_free).
Proof.
  intros I HI. cbn in HI.
  repeat (destruct HI as [<-|HI]; [split;
    [first [left; reflexivity | right; left; reflexivity | do 2 right; left; reflexivity | do 3 right; left; reflexivity
     | do 4 right; intros a b; apply sc_in; cbv [scalings map scI]; cbn [In]; repeat (first [left; reflexivity|right])]
    |first [left; reflexivity | right; left; reflexivity | do 2 right; left; reflexivity | do 3 right; left; reflexivity
     | do 4 right; left; reflexivity | do 5 right; left; reflexivity
     | do 6 right; cbv [unit_free]; cbn [In]; repeat (first [left; reflexivity|right])]]|]). contradiction.
Qed.
Print Assumptions C87_complete.

(** ** Where the unit matters: float64, prices divided by a power of two, so without rounding *)
Definition pc (o h l c : Z) (t : Z) : @Candle EX :=
  mkCandle fzero 0 (ofZ o) (ofZ c) (ofZ l) (ofZ h) (ofZ 100) fzero true (1600000000 + 60 * t).
Definition prices (l : list (Z * Z * Z * Z)) : list (@Candle EX) :=
  map (fun '(i, (o, h, l, c)) => pc o h l c (Z.of_nat i)) (combine (seq 0 (length l)) l).
(** RSI calls a window without price changes of 1e-14 in total flat, whatever the unit. *)
Theorem C87_rsi_refuted : exists (kl : list (@Candle EX)) (p : Z) s s',
  sides_of I_Rsi p kl = Ok s /\ sides_of I_Rsi p (map (rescale (lit 1 1152921504606846976) (ofZ 1)) kl) = Ok s' /\ s <> s'.
Proof.
  exists (prices [(1, 2, 1, 1); (1, 2, 1, 2); (2, 3, 2, 3); (3, 4, 3, 4); (4, 4, 2, 2)]), 2.
  do 2 eexists. split; [vm_compute; reflexivity|]. split; [vm_compute; reflexivity|]. vm_compute. discriminate.
Qed.
Print Assumptions C87_rsi_refuted.
Theorem C87_stochrsi_refuted : exists (kl : list (@Candle EX)) (p : StochRsiP) s s',
  sides_of I_StochRsi p kl = Ok s /\ sides_of I_StochRsi p (map (rescale (lit 1 1152921504606846976) (ofZ 1)) kl) = Ok s' /\ s <> s'.
Proof.
  exists (prices [(1, 2, 1, 1); (1, 2, 1, 2); (2, 3, 2, 3); (3, 4, 3, 4); (4, 4, 2, 2); (2, 2, 1, 1); (1, 5, 1, 5); (5, 9, 5, 9); (9, 9, 3, 3)]),
    (mkStochRsiP 1 2 2 2).
  do 2 eexists. split; [vm_compute; reflexivity|]. split; [vm_compute; reflexivity|]. vm_compute. discriminate.
Qed.
Print Assumptions C87_stochrsi_refuted.
(** KDJ calls a range of less than 1e-6 flat. *)
Theorem C87_kdj_refuted : exists (kl : list (@Candle EX)) (p : Z) s s',
  sides_of I_Kdj p kl = Ok s /\ sides_of I_Kdj p (map (rescale (lit 1 1152921504606846976) (ofZ 1)) kl) = Ok s' /\ s <> s'.
Proof.
  exists (prices [(1, 2, 1, 1); (1, 2, 1, 2); (2, 3, 2, 3); (3, 4, 3, 4); (4, 4, 2, 2); (2, 2, 1, 1); (1, 5, 1, 5); (5, 9, 5, 9); (9, 9, 3, 3)]), 2.
  do 2 eexists. split; [vm_compute; reflexivity|]. split; [vm_compute; reflexivity|]. vm_compute. discriminate.
Qed.
Print Assumptions C87_kdj_refuted.
(** SuperTrend without ChangeATR takes its band width from a percentage. *)
Theorem C87_supertrend_refuted : exists (kl : list (@Candle EX)) (p : STP) s s',
  sides_of I_SuperTrend p kl = Ok s /\ sides_of I_SuperTrend p (map (rescale (ofZ 16) (ofZ 1)) kl) = Ok s' /\ s <> s'.
Proof.
  exists (prices [(10, 11, 9, 10); (10, 12, 10, 11); (11, 13, 11, 12); (12, 14, 11, 13); (13, 14, 12, 12); (12, 12, 6, 6); (6, 9, 5, 9); (9, 19, 9, 19); (19, 29, 18, 28)]),
    (mkSTP 2 1 false).
  do 2 eexists. split; [vm_compute; reflexivity|]. split; [vm_compute; reflexivity|]. vm_compute. discriminate.
Qed.
Print Assumptions C87_supertrend_refuted.

(** the hypotheses at work: a quotation in cents, volumes in lots of 100 *)
Example C87_hyp : let x : @F XR := Fin 100 in (0 < 100)%R /\ (0 < / 100)%R /\
  In (mkScaling I_Macd (fun v => mkMacdV (x *~ mDIF v) (x *~ mDEA v) (x *~ mMacd v))) (scalings (N := XR) (Fin 100) (Fin (/ 100))) /\
  In (@I_Macd XR) unit_free.
Proof. repeat split; try lra; cbv [scalings unit_free]; cbn [In]; tauto. Qed.
