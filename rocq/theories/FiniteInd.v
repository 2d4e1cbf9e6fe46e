(** * FiniteInd: in exact arithmetic, on well-formed candles, which indicator rows hold finite numbers only. *)
From Coq Require Import Reals Lra ZArith Lia Bool List.
From Verif Require Import Base Num XReal XrMore Containers Ta TaTools Regression Sides Klines KlineProofs3 RSum SpecTa SpecBar
  IndBase IndTrend IndChannel IndVolume IndOsc IndTools IndForms IndForms2 IndFormsSpec BreakProb PropInd1 PropInd4 PropInd8 Finite.
Import ListNotations.
Set Implicit Arguments.
Unset Strict Implicit.
Open Scope Z_scope.
Local Notation X := (@F XR).
Local Notation candle := (Candle (N := XR)).

(** finite prices and volume, low and close above 0 *)
Record CK (k : candle) : Prop := mkCK {
  ck_o : Fi (cOpen k); ck_h : Fi (cHigh k); ck_l : Po (cLow k); ck_c : Po (cClose k); ck_v : Fi (cVolume k);
  ck_flat : cHigh k = cLow k -> cClose k = cLow k }.
Record OK (o : OHLC (N := XR)) : Prop := mkOK {
  ok_o : Fis (oOpen o); ok_h : Fis (oHigh o); ok_l : Fis (oLow o); ok_c : Fis (oClose o); ok_v : Fis (oVolume o);
  ok_lp : Forall Po (oLow o); ok_cp : Forall Po (oClose o) }.
Definition rowK {A} (P : A -> Prop) (r : row A) : Prop := P (rVal r).
Lemma fa_map A B (P : A -> Prop) (Q : B -> Prop) (f : A -> B) l : Forall P l -> (forall a, P a -> Q (f a)) -> Forall Q (map f l).
Proof. intros H Hf. induction H; cbn; auto. Qed.

Section Ind.
Variable kl : list candle.
Hypothesis K : Forall CK kl.
Local Notation frows := (Forall (rowK Fi)).

Lemma GetOHLC_k : Kp OK (GetOHLC kl).
Proof.
  rewrite GetOHLC_spec. cbn [Kp]. constructor; cbn [oOpen oHigh oLow oClose oVolume]; unfold Fis; apply (fa_map K); intros k []; auto using Po_Fi.
Qed.
Lemma percandle_k f : (forall k, CK k -> Fi (f k)) -> Kp Fis (percandle f kl).
Proof. intros Hf. unfold percandle. kg. krange Fis. apply kp_setF; auto. Qed.
Lemma HL2_k : Kp Fis (HL2 kl).
Proof. apply percandle_k. intros k []. fi. Qed.
Lemma HLC3_k : Kp Fis (HLC3 kl).
Proof. apply percandle_k. intros k []. fi. Qed.
Lemma append_k A (P : A -> Prop) tm n f d : Forall (rowK P) d -> (forall i, Kp P (f i)) -> Kp (Forall (rowK P)) (append_rows tm n f d).
Proof.
  intros Hd Hf. unfold append_rows. eapply (@kp_for _ (Forall (rowK P))); [exact Hd|].
  intros i s _ Hs. eapply kp_bind; [apply kp_any|]. intros t _. eapply kp_bind; [apply Hf|]. intros. cbn. now apply fa_snoc.
Qed.
Lemma make_k A (P : A -> Prop) z size tm lo n f : P z -> (forall i, Kp P (f i)) -> Kp (Forall (rowK P)) (make_rows z size tm lo n f).
Proof.
  intros Hz Hf. unfold make_rows. eapply kp_bind; [apply (@kp_make _ (rowK P)); exact Hz|]. intros.
  eapply (@kp_for _ (Forall (rowK P))); [eassumption|].
  intros i s _ Hs. eapply kp_bind; [apply kp_any|]. intros t _. eapply kp_bind; [apply Hf|]. intros. now apply kp_set.
Qed.
Lemma values_k A (P : A -> Prop) f d : (forall v, P v -> Fi (f v)) -> Forall (rowK P) d -> Kp Fis (values f d).
Proof. intros Hf H. unfold values. kg. krange Fis. apply kp_setF; auto. Qed.
Lemma values_app_k A (P : A -> Prop) (f : A -> X) d : (forall v, P v -> Fi (f v)) -> Forall (rowK P) d -> Kp Fis (values_app f d).
Proof. intros Hf H. unfold values_app. krange Fis. cbn [Kp]. apply fa_snoc; auto. Qed.

Ltac ohlc := eapply kp_bind; [apply GetOHLC_k|]; intros ? [].
Ltac proj := cbn [kdK kdD mDIF mDEA mMacd kRSV kK kD kJ aTR aAtr vPlus vMinus hvFast hvSlow sUp sUpBegin sDn sDnBegin uClose uValue xFast xSlow
  gV gS1 gS2 gL1 gL2 axPlus axMinus axADX lcOpen lcClose lcHigh lcLow lcSignal blUpper blMiddle blLower blMD bUpper bMiddle bLower
  caEMA caPivot caH1 caH2 caH3 caH4 caH5 caH6 caL1 caL2 caL3 caL4 caL5 caL6 coValue coAD iConv iBase iSpanA iSpanB iLag
  ppoV ppoSignal ppoHist pjPo pjSpo].
Ltac nums := repeat (constructor; [proj; fi|]); try constructor.
Ltac app := eapply append_k; [try constructor|intros ?; try kg].
Ltac mkr := eapply make_k; [try solve [kv | nums]|intros ?; try kg].
Ltac okn := cbn [Kp]; nums.
Local Hint Resolve HL2_k HLC3_k : fin.

(** ** one number per row *)
Lemma Ma_k p : 1 <= p -> Kp frows (rows_of I_Ma p kl).
Proof. intros. cbn. unfold ma_calc. ohlc. kg. app. Qed.
Lemma Sma_k p : 1 <= p -> Kp frows (rows_of I_Sma p kl).
Proof. intros. cbn. unfold sma_calc. ohlc. kg. mkr. Qed.
Lemma Ema_k p : 1 <= p -> Kp frows (rows_of I_Ema p kl).
Proof. intros. cbn. unfold ema_calc. ohlc. kg. mkr. Qed.
Lemma Dema_k p : 1 <= p -> Kp frows (rows_of I_Dema p kl).
Proof. intros. cbn. unfold dema_calc. ohlc. kg. mkr. Qed.
Lemma Rma_k p : 1 <= p -> Kp frows (rows_of I_Rma p kl).
Proof.
  intros. cbn. unfold rma_calc. ohlc. kg. eapply kp_bind; [apply (@kp_make _ (rowK Fi)), Fi_zero|intros]. app. assumption.
Qed.
Lemma AiCoin_k p : Kp frows (rows_of I_AiCoinCCI p kl).
Proof. cbn. unfold aicoin_calc. ohlc. kg. app. Qed.
Lemma CMF_k p : Kp frows (rows_of I_CMF p kl).
Proof. cbn. unfold cmf_calc. ohlc. kg. app. Qed.
Lemma EMV_k p : 1 <= p -> Kp frows (rows_of I_EMV p kl).
Proof. intros. cbn. unfold emv_calc. ohlc. kg. app. Qed.
Lemma Force_k p : 1 <= p -> Kp frows (rows_of I_Force p kl).
Proof. intros. cbn. unfold force_calc. ohlc. kg. app. Qed.
Lemma NVI_k p : Kp frows (rows_of I_NVI p kl).
Proof.
  cbn. unfold nvi_calc. ohlc. kmid Fis.
  - clear ok_c0. unfold nvi. kg. kloop Fis.
  - app.
Qed.
Lemma Obv_k p : Kp frows (rows_of I_Obv p kl).
Proof.
  cbn. unfold obv_calc. ohlc. kloop frows. eapply kp_bind with (P := Fi).
  - kg. all: match goal with H : rowK Fi _ |- _ => red in H end; cbn [Kp]; fi.
  - intros. eapply kp_bind; [apply kp_any|]. intros. cbn. now apply fa_snoc.
Qed.
Lemma VPT_k p : Kp frows (rows_of I_VPT p kl).
Proof. cbn. unfold vpt_calc. ohlc. kg. app. Qed.
Lemma Vwma_k p : Kp frows (rows_of I_Vwma p kl).
Proof. cbn. unfold vwma_calc. ohlc. kg. app. Qed.
Lemma APO_k p : 1 <= fsFast p -> 1 <= fsSlow p -> Kp frows (rows_of I_APO p kl).
Proof. intros. cbn. unfold apo_calc. ohlc. kg. mkr. Qed.
Lemma AO_k p : Kp frows (rows_of I_AO p kl).
Proof. cbn. unfold ao_calc. ohlc. kg. app. Qed.
Lemma VOsc_k p : 1 <= fsFast p -> 1 <= fsSlow p -> Kp frows (rows_of I_VOsc p kl).
Proof. intros. cbn. unfold vosc_calc. ohlc. kg. mkr. Qed.

(** Ulcer index: squares, their average and its root *)
Definition Nn (x : X) : Prop := exists r, x = Fin r /\ (0 <= r)%R.
Lemma Nn_Fi x : Nn x -> Fi x. Proof. intros (r & -> & _). now exists r. Qed.
Lemma Ema_nn p xs : 1 <= p -> Forall Nn xs -> Kp (Forall Nn) (Ema p xs).
Proof.
  intros Hp H. assert (N0 : Nn fzero) by (exists 0%R; split; [reflexivity|lra]). unfold Ema. eapply kp_bind; [apply kp_make, N0|intros].
  krange (Forall Nn). apply kp_set; [assumption|].
  match goal with H1 : Nn a0, H2 : Nn a1 |- _ => destruct H1 as (u & -> & U), H2 as (w & -> & W) end.
  assert (0 <= IZR (p - 1))%R by (apply IZR_le; lia). assert (0 < IZR (p + 1))%R by (apply IZR_lt; lia).
  eexists. split; [apply xdiv_fin; lra|]. apply Rmult_le_pos; [|left; now apply Rinv_0_lt_compat]. nra.
Qed.
Lemma Multiply_nn xs : Fis xs -> Kp (Forall Nn) (Multiply xs xs).
Proof.
  intros H. assert (N0 : Nn fzero) by (exists 0%R; split; [reflexivity|lra]).
  unfold Multiply, map2. eapply kp_bind; [apply kp_make, N0|intros].
  eapply (@kp_for _ (Forall Nn)); [assumption|intros i s _ Hs].
  destruct (get xs i) as [v|] eqn:E; [|exact I]. cbn [bind].
  pose proof (kp_getF i H) as Hv. rewrite E in Hv. destruct Hv as (r & ->).
  apply kp_set; [assumption|]. exists (r * r)%R. split; [reflexivity|nra].
Qed.
Lemma Sqrt_k xs : Forall Nn xs -> Kp Fis (Sqrt xs).
Proof.
  intros H. eapply (@kp_map1 Nn); [|apply Fi_zero|exact H]. intros x (r & -> & Hr). cbn. rewrite (proj2 (Rltb_false r 0)) by lra. eexists; reflexivity.
Qed.
Lemma Ulcer_k p : 1 <= p -> Kp frows (rows_of I_Ulcer p kl).
Proof.
  intros. cbn. unfold ulcer_calc. ohlc. do 4 (eapply kp_bind; [solve [kg1]|intros ? ?]).
  eapply kp_bind; [apply Multiply_nn; assumption|intros]. eapply kp_bind; [apply Ema_nn; assumption|intros].
  eapply kp_bind; [apply Sqrt_k; assumption|intros]. app.
Qed.

(** ** several numbers per row *)
Definition kd_nums (v : KD (N := XR)) : list X := [kdK v; kdD v].
Definition macd_nums (v : MacdV (N := XR)) : list X := [mDIF v; mDEA v; mMacd v].
Definition kdj_nums (v : KdjV (N := XR)) : list X := [kRSV v; kK v; kD v; kJ v].
Definition atr_nums (v : AtrV (N := XR)) : list X := [aTR v; aAtr v].
Definition vortex_nums (v : VortexV (N := XR)) : list X := [vPlus v; vMinus v].
Definition heat_nums (v : HeatV (N := XR)) : list X := [hvFast v; hvSlow v].
Definition st_nums (v : STV (N := XR)) : list X := [sUp v; sUpBegin v; sDn v; sDnBegin v].
Definition ut_nums (v : UTV (N := XR)) : list X := [uClose v; uValue v].
Definition xo_nums (v : XOV (N := XR)) : list X := [xFast v; xSlow v].
Definition vegas_nums (v : VegasV (N := XR)) : list X := [gV v; gS1 v; gS2 v; gL1 v; gL2 v].
Definition adx_nums (v : AdxV (N := XR)) : list X := [axPlus v; axMinus v; axADX v].
Definition lrc_nums (v : LrcV (N := XR)) : list X := [lcOpen v; lcClose v; lcHigh v; lcLow v; lcSignal v].
Definition bp_nums (v : BPV (N := XR)) : list X := bvWin v :: bvLoss v :: flat_map (fun it => [biPrice it; biPer it]) (bvList v).
Definition boll_nums (v : BollV (N := XR)) : list X := [blUpper v; blMiddle v; blLower v; blMD v].
Definition band_nums (v : Band (N := XR)) : list X := [bUpper v; bMiddle v; bLower v].
Definition cam_nums (v : CamV (N := XR)) : list X :=
  [caEMA v; caPivot v; caH1 v; caH2 v; caH3 v; caH4 v; caH5 v; caH6 v; caL1 v; caL2 v; caL3 v; caL4 v; caL5 v; caL6 v].
Definition chaikin_nums (v : ChaikinV (N := XR)) : list X := [coValue v; coAD v].
Definition ichi_nums (v : IchiV (N := XR)) : list X := [iConv v; iBase v; iSpanA v; iSpanB v; iLag v].
Definition ppo_nums (v : PPOV (N := XR)) : list X := [ppoV v; ppoSignal v; ppoHist v].
Definition proj_nums (v : ProjV (N := XR)) : list X := [pjPo v; pjSpo v].
Local Notation all nums := (Forall (rowK (fun v => Fis (nums v)))).

Lemma Macd_k p : 1 <= mShort p -> 1 <= mSignal p -> 1 <= mLong p -> Kp (all macd_nums) (rows_of I_Macd p kl).
Proof. intros. cbn. unfold macd_calc. ohlc. kg. mkr. okn. Qed.
Lemma Atr_k p : 1 <= p -> Kp (all atr_nums) (rows_of I_Atr p kl).
Proof.
  intros. cbn. unfold atr_calc. ohlc. kmid Fis.
  - unfold atr_tr. kg. kloop Fis. kmid Fi.
  - mkr. okn.
Qed.
Lemma TraderXO_k p : 1 <= xFastP p -> 1 <= xSlowP p -> Kp (all xo_nums) (rows_of I_TraderXO p kl).
Proof. intros. cbn. unfold traderxo_calc. ohlc. kg. mkr. okn. Qed.
Lemma Vegas_k p : 1 <= vgP p -> 1 <= vgS1 p -> 1 <= vgS2 p -> 1 <= vgL1 p -> 1 <= vgL2 p -> Kp (all vegas_nums) (rows_of I_EMAVegas p kl).
Proof. intros. cbn. unfold vegas_calc. ohlc. kg. mkr. okn. Qed.
Lemma LRC_k p : 2 <= lrLength p -> 1 <= lrSmooth p -> Kp (all lrc_nums) (rows_of I_LRC p kl).
Proof. intros. cbn. unfold lrc_calc. ohlc. kg. kmid Fis. mkr. okn. Qed.
Lemma Donchian_k p : Kp (all band_nums) (rows_of I_Donchian p kl).
Proof. cbn. unfold donchian_calc. ohlc. kg. app. okn. Qed.
Lemma Keltner_k p : 1 <= p -> Kp (all band_nums) (rows_of I_Keltner p kl).
Proof.
  intros. change (Kp (all band_nums) (keltner_calc p kl [])). unfold keltner_calc.
  eapply kp_bind; [apply Atr_k; assumption|intros].
  eapply kp_bind; [eapply values_app_k; [|eassumption]; intros v Hv; inversion Hv as [|? ? ? Hw]; now inversion Hw|intros]. kg.
  eapply kp_bind; [apply Ema_k; assumption|intros].
  eapply kp_bind; [eapply values_k; [|eassumption]; auto|intros]. kg. app. okn.
Qed.
Lemma Camarilla_k p : 1 <= camEMA p -> Kp (all cam_nums) (rows_of I_Camarilla p kl).
Proof.
  intros. cbn. unfold cam_calc, cam_calc0. ohlc. clear ok_l0. kg. mkr. unfold getCamarilla. okn.
Qed.
Lemma mid_k a b h l : Fis h -> Fis l -> Kp Fis (mid_line a b h l).
Proof. intros. unfold mid_line. kg. Qed.
Local Hint Resolve mid_k : fin.
Lemma Ichi_k p : Kp (all ichi_nums) (rows_of I_Ichimoku p kl).
Proof. cbn. unfold ichi_calc. ohlc. kg. app. okn. Qed.
Lemma PPO_k p : 1 <= poFast p -> 1 <= poSlow p -> 1 <= poSignal p -> Kp (all ppo_nums) (rows_of I_PPO p kl).
Proof. intros. cbn. unfold ppo_calc. ohlc. kg. app. okn. Qed.
Lemma Projection_k p : 1 <= pjSmooth p -> Kp (all proj_nums) (rows_of I_Projection p kl).
Proof.
  intros. cbn. unfold proj_calc. ohlc.
  eapply kp_bind; [apply kp_any|intros x _]. eapply kp_bind; [apply kp_any|intros [m1 b1] _]. eapply kp_bind; [apply kp_any|intros [m2 b2] _].
  do 9 (eapply kp_bind; [apply kp_any|intros ? _]).
  eapply kp_bind; [apply k_Divide|intros]. kg. app. okn.
Qed.
Lemma Stoch_k p : Kp (all kd_nums) (rows_of I_Stoch p kl).
Proof. cbn. unfold stoch_calc. ohlc. kg. app. okn. Qed.

(** ** Stochastic heat *)
Lemma getStoch_k p c h l i : 1 <= hFast p -> Fis c -> Fis h -> Fis l -> Kp Fis (getStoch p c h l i).
Proof. intros. unfold getStoch. kg. Qed.
Lemma heat_slow_k p xs : 1 <= hSlow p -> Fis xs -> Kp Fis (heat_slow p xs).
Proof. intros. unfold heat_slow. kg. Qed.
Lemma heat_sum_k ls i : Forall Fis ls -> Kp Fi (heat_sum ls i).
Proof.
  intros H. destruct H as [|l0 rest H0 H]; cbn [heat_sum]; [cbn [Kp]; fi|]. kg. krange Fi.
Qed.
Lemma Heat_k p : 1 <= hFast p -> 1 <= hSlow p -> hPlot p <> 0 -> Kp (all heat_nums) (rows_of I_StochasticHeat p kl).
Proof.
  intros. cbn. unfold heat_calc. ohlc. eapply kp_bind with (P := PK Fis Fis).
  - unfold heat. eapply kp_bind with (P := Forall Fis).
    { unfold heat_lines. kloop (Forall Fis). eapply kp_bind; [apply getStoch_k; assumption|intros; cbn [Kp]; kv]. }
    intros. kg. kloop (PK Fis Fis). eapply kp_bind; [apply heat_sum_k; eassumption|intros].
    eapply kp_bind; [eapply kp_setF; [eassumption|]|intros].
    { apply Fi_mul; [|fi]. apply Fi_div; [|nzt]. apply Fi_div; [fi|]. now apply nz_ofZ. }
    eapply kp_bind; [apply heat_slow_k; eassumption|intros]. kg.
  - intros. open_pk. app. okn.
Qed.

(** ** trailing stops *)
Definition strK (r : STRow (N := XR)) : Prop := Fi (r_up r) /\ Fi (r_upb r) /\ Fi (r_dn r) /\ Fi (r_dnb r) /\ Fi (r_trend r).
Lemma st_step_k m s a cp c r : Fi s -> Fi a -> strK r -> strK (st_step m s a cp c r).
Proof.
  intros ? ? (Hu & _ & Hd & _ & Ht). unfold st_step. cbv zeta.
  repeat split; cbn [r_up r_upb r_dn r_dnb r_trend]; fi.
Qed.
Lemma scan_k A (P : A -> Prop) rows n step : Forall P rows -> (forall i a, P a -> Kp P (step i a)) -> Kp (Forall P) (scan_rows rows n step).
Proof.
  intros H Hs. unfold scan_rows. eapply (@kp_for _ (Forall P)); [exact H|]. intros i s _ Hp.
  eapply kp_bind; [apply kp_get; exact Hp|intros a Ha]. eapply kp_bind; [apply Hs, Ha|intros]. now apply kp_set.
Qed.
Lemma SuperTrend_k p : 1 <= stPeriod p -> Kp (all st_nums) (rows_of I_SuperTrend p kl).
Proof.
  intros. cbn. unfold supertrend_calc. ohlc. kg. eapply kp_bind with (P := Forall strK).
  - assert (S0 : strK st_zero) by (repeat split; apply Fi_zero).
    unfold supertrend. eapply kp_bind; [apply (@kp_make _ strK), S0|intros].
    eapply kp_bind with (P := Fis); [unfold st_atr; kg|intros].
    eapply kp_bind with (P := Forall strK); [kg; apply kp_set; [assumption|repeat split; cbn [r_up r_upb r_dn r_dnb r_trend]; fi]|intros].
    apply scan_k; [assumption|]. intros. kg. cbn [Kp]. now apply st_step_k.
  - intros. mkr. match goal with H : strK _ |- _ => destruct H as (? & ? & ? & ? & _) end. okn.
Qed.
Definition ppK (r : PPRow (N := XR)) : Prop := Fi (p_up r) /\ Fi (p_dn r) /\ Fi (p_center r) /\ Fis (st_nums (p_out r)).
Lemma pp_step_k f h l a cp c r : Fi f -> Fi h -> Fi l -> Fi a -> ppK r -> ppK (pp_step f h l a cp c r).
Proof.
  intros ? ? ? ? (Hu & Hd & Hc & _). unfold pp_step. cbv zeta.
  match goal with |- context[negb (?e ==~ ofZ 0)] => assert (L : Fi e) by fi; revert L; generalize e end. intros x L.
  match goal with |- ppK (mkPPRow _ _ ?e _ _) => assert (C : Fi e) by fi; revert C; generalize e end. intros y C.
  match goal with |- ppK (mkPPRow ?e ?f _ _ _) => assert (U : Fi e) by fi; assert (D : Fi f) by fi; revert U D; generalize e, f end. intros u d U D.
  repeat split; cbn [p_up p_dn p_center p_out]; try assumption. nums.
Qed.
Lemma PPST_k p : Fi (ppFactor p) -> Kp (all st_nums) (rows_of I_PPST p kl).
Proof.
  intros. cbn. unfold ppst_calc. ohlc. eapply kp_bind with (P := Forall ppK).
  - unfold ppsupertrend. do 3 (eapply kp_bind; [solve [kg1]|intros ? ?]).
    eapply kp_bind; [apply (@kp_make _ ppK); repeat split; try apply Fi_zero; repeat constructor; apply Fi_zero|intros].
    apply scan_k; [assumption|]. intros. kg. cbn [Kp]. now apply pp_step_k.
  - intros. mkr. match goal with H : ppK _ |- _ => destruct H as (_ & _ & _ & ?) end. cbn [Kp]. assumption.
Qed.
Lemma UTBot_k p : Kp (all ut_nums) (rows_of I_UTBot p kl).
Proof.
  cbn. unfold utbot_calc. ohlc. eapply kp_bind with (P := Fis).
  - unfold utbot. kg. apply scan_k; [assumption|]. intros. kg. unfold ut_step. cbn [Kp]. cbv zeta. fi.
  - intros. mkr. okn.
Qed.

(** ** breakout probability *)
Lemma BP_k p : Fi (bpStep p) -> Kp (all bp_nums) (rows_of I_BreakoutProbability p kl).
Proof.
  intros Hs. destruct (C50_BreakoutProbability p kl) as (rows & E & Len & H). rewrite E. cbn [Kp].
  apply Forall_forall. intros r Hr. apply In_nth_error in Hr as [i Hi]. red.
  pose proof E as E'. rewrite Breakout_T in E'. injection E' as <-. pose proof Hi as Hi'. apply tab_some in Hi' as [Li ->]. cbn [rVal] in *.
  destruct i as [|i]; [repeat constructor; apply Fi_zero|].
  destruct (H (S i) _ ltac:(lia) Hi) as (_ & HP & w & l & _ & _ & _ & Ew & El). cbn [rVal] in *.
  unfold bp_nums. rewrite Ew, El. constructor; [fi|]. constructor; [fi|].
  apply Forall_forall. intros x Hx. apply in_flat_map in Hx as (it & Hit & Hx).
  destruct Hx as [<-|[<-|[]]]; [|apply In_nth_error in Hit as [k Hk]; destruct (HP k it Hk) as [Pc _]; apply C50_exact in Pc as (y & -> & _); now exists y].
  assert (C : CK (cn kl (S i))).
  { destruct (nth_error kl (S i)) as [c|] eqn:Ec; [|apply nth_error_None in Ec; lia]. apply cn_some in Ec as Ec1. rewrite Ec1. eapply Forall_forall; [exact K|]. eapply nth_error_In, Ec. }
  destruct C. cbn [browF bout bvList] in Hit.
  assert (B : forall k, Fi (biPrice (fst (bshow p kl (S i) k))) /\ Fi (biPrice (snd (bshow p kl (S i) k)))).
  { intros k. unfold bshow, bp_shown, bp_one. destruct (_ <? _); [|split; apply Fi_zero].
    destruct (bval _ _ _ _) as [[[v0 v1] v2] v3]. destruct (_ || _)%bool; [|split; apply Fi_zero]. cbn [fst snd biPrice]. unfold bstep. split; fi. }
  apply in_app_or in Hit as [Hit|Hit]; apply In_nth_error in Hit as [k Hk]; apply tab_some in Hk as [_ ->]; apply B.
Qed.
Lemma Reversal_k p : Kp (all (fun _ => [])) (rows_of I_Reversal p kl).
Proof. destruct (rows_of I_Reversal p kl) as [l|]; [|exact I]. cbn [Kp]. apply Forall_forall. intros. constructor. Qed.

(** ** RSI and KDJ divide only when the divisor is not near 0 *)
Lemma rsi_out_k g l : Fi g -> Fi l -> Fi (rsi_out g l).
Proof.
  intros (a & ->) (b & ->). unfold rsi_out. cbv zeta. destruct (_ && _)%bool eqn:E; cbn [negb]; [fi|].
  apply Fi_mul; [fi|]. apply Fi_div; [now exists a|]. exists (a + b)%R. split; [reflexivity|]. intros Z. apply andb_false_iff in E. cbn in E. unfold Rltb in E.
  rewrite Z in E. destruct E as [E|E]; destruct (Rlt_dec _ _) as [L|L] in E; try discriminate; apply L; lra.
Qed.
Lemma rsi_add_k c g l : Fi c -> Fi g -> Fi l -> PK Fi Fi (rsi_add c g l).
Proof. intros. unfold rsi_add. destruct (_ <~ _); apply pk_intro; fi. Qed.
Lemma rsi_k xs p : Fis xs -> Kp Fis (rsi xs p).
Proof.
  intros H. unfold rsi. kg. kbloop (PK (PK Fi Fi) Fi).
  - match goal with |- Kp _ (let '(_, _) := ?e in _) => assert (Y : PK Fi Fi e) by (apply rsi_add_k; fi); revert Y; generalize e end. intros; open_pk. kg.
  - eapply kp_bind; [eapply kp_setF; [eassumption|apply rsi_out_k; fi]|intros].
    kbloop (PK (PK (PK Fi Fi) Fi) Fis).
    match goal with |- Kp _ (let '(_, _) := ?e in _) => assert (Y : PK Fi Fi e) by (apply rsi_add_k; fi); revert Y; generalize e end. intros; open_pk.
    eapply kp_bind; [eapply kp_setF; [eassumption|apply rsi_out_k; fi]|intros]. kg.
Qed.
Local Hint Resolve rsi_k : fin.
Lemma Rsi_k p : Kp frows (rows_of I_Rsi p kl).
Proof. cbn. unfold rsi_calc. ohlc. kg. app. Qed.
Lemma StochRsi_k p : 1 <= srK p -> 1 <= srD p -> Kp (all kd_nums) (rows_of I_StochRsi p kl).
Proof.
  intros. change (Kp (all kd_nums) (stochrsi_calc p kl [])). unfold stochrsi_calc.
  eapply kp_bind; [apply Rsi_k|intros]. eapply kp_bind; [eapply values_app_k; [|eassumption]; auto|intros]. kg. app. okn.
Qed.
Lemma lowest_k xs : Fis xs -> Kp Fi (arrayLowest xs).
Proof. intros. unfold arrayLowest. kg. kloop Fi. Qed.
Lemma highest_k xs : Fis xs -> Kp Fi (arrayHighest xs).
Proof. intros. unfold arrayHighest. kg. kloop Fi. Qed.
Local Hint Resolve lowest_k highest_k : fin.
Lemma kdj_kd_k p l h c : Fis h -> Fis l -> Fis c -> Kp (Forall (PK (PK Fi Fi) Fi)) (kdj_kd p l h c).
Proof.
  intros. unfold kdj_kd. eapply kp_bind; [apply (@kp_make _ (PK (PK Fi Fi) Fi)); kv|intros].
  kbloop (PK (PK Fis Fis) (Forall (PK (PK Fi Fi) Fi))).
  all: match goal with |- Kp _ ?g => match g with context[?u ++ [?x]] => match g with context[?v ++ [?y]] =>
    assert_fails (constr_eq u v); assert (A1 : Fis (u ++ [x])) by kv; assert (A2 : Fis (v ++ [y])) by kv;
    revert A1 A2; generalize (u ++ [x]), (v ++ [y]) end end end; intros; kg.
  eapply kp_bind with (P := Fi).
  - destruct (_ <~ _) eqn:E; kg. cbn [Kp]. apply Fi_mul; [|fi]. apply Fi_div; [fi|].
    match goal with A : Fi ?u, B : Fi ?v |- nz (?u -~ ?v) => destruct A as (x & ->), B as (y & ->) end.
    exists (x - y)%R. split; [reflexivity|]. cbn in E. unfold Rltb in E. destruct (Rlt_dec _ _) as [L|L] in E; [discriminate|]. lra.
  - intros. kg.
Qed.
Lemma Kdj_k p : Kp (all kdj_nums) (rows_of I_Kdj p kl).
Proof.
  cbn. unfold kdj_calc. ohlc. eapply kp_bind; [apply kdj_kd_k; assumption|intros]. mkr. unfold kdj_j. okn.
Qed.

(** ** accumulation/distribution: the only row value that is divided without a guard is 0/0, which is caught *)
Lemma CK_cn i : (i < length kl)%nat -> CK (cn kl i).
Proof.
  intros Hi. destruct (nth_error kl i) as [c|] eqn:Ec; [|apply nth_error_None in Ec; lia]. apply cn_some in Ec as Ec1. rewrite Ec1.
  eapply Forall_forall; [exact K|]. eapply nth_error_In, Ec.
Qed.
Lemma adV_k i : (i < length kl)%nat -> Fi (adV kl i).
Proof.
  intros Hi. destruct (CK_cn Hi) as [_ (h & Eh) (l & El & _) (c & Ec & _) (v & Ev) Hf]. unfold adV, ad_val. cbv zeta. rewrite Eh, El, Ec, Ev in *.
  destruct (Req_dec h l) as [->|Hn].
  - specialize (Hf eq_refl). injection Hf as ->.
    assert (Q : forall z : X, z = Fin l -> ((z -~ z) -~ (z -~ z)) /~ (z -~ z) = NaN).
    { intros z ->. cbn. replace (l + - l)%R with 0%R by lra. replace (0 + - 0)%R with 0%R by lra. apply xdiv_00. }
    rewrite (Q _ eq_refl). cbn. now exists 0%R.
  - apply Fi_if; intros _; [fi|]. apply Fi_mul; [now exists v|]. apply Fi_div; [repeat apply Fi_sub; eexists; reflexivity|].
    exists (h - l)%R. split; [reflexivity|lra].
Qed.
Lemma adF_k i : (i < length kl)%nat -> Fi (adF kl i).
Proof.
  induction i as [|i IH]; intros Hi; cbn [adF]; (apply Fi_add; [|now apply adV_k]); [apply Fi_zero|apply IH; lia].
Qed.
Lemma AD_k p : Kp frows (rows_of I_AD p kl).
Proof.
  destruct p. rewrite AD_T. cbn [Kp]. apply Forall_forall. intros r Hr. apply In_nth_error in Hr as [i Hi]. apply tab_some in Hi as [Hi ->]. now apply adF_k.
Qed.
Lemma Chaikin_k p : 1 <= fsFast p -> 1 <= fsSlow p -> Kp (all chaikin_nums) (rows_of I_Chaikin p kl).
Proof.
  intros. change (Kp (all chaikin_nums) (chaikin_calc p kl [])). unfold chaikin_calc.
  eapply kp_bind; [apply AD_k|intros]. eapply kp_bind; [eapply values_k; [|eassumption]; auto|intros]. kg. app. okn.
Qed.
Variable bs : list bar.
Hypothesis B : Forall2 is_bar kl bs.
Lemma MFI_k p : 1 <= p -> Kp frows (rows_of I_MFI p kl).
Proof.
  intros Hp. destruct (C55_exact Hp B) as (rows & E & _ & H). rewrite E. cbn [Kp]. apply Forall_forall. intros r Hr. apply In_nth_error in Hr as [i Hi].
  destruct (H i r Hi) as (_ & _ & x & Ex & _). now exists x.
Qed.
Lemma Boll_k p : 1 <= blN p -> Kp (all boll_nums) (rows_of I_Boll p kl).
Proof.
  intros Hp. destruct (@C52_exact p kl (map bC bs) Hp) as (rows & E & _ & H).
  { clear -B. induction B as [|c b kl bs Hb HB IH]; [reflexivity|]. cbn [map]. f_equal; [apply Hb|exact (IH HB)]. }
  rewrite E. cbn [Kp]. apply Forall_forall. intros r Hr. apply In_nth_error in Hr as [i Hi].
  destruct (H i r Hi) as (E1 & E2 & E3 & E4). red. unfold boll_nums. repeat (constructor; [eexists; eassumption|]). constructor.
Qed.
End Ind.
Lemma bars_CK kl bs : Forall2 is_bar kl bs -> Forall well_formed bs -> Forall (fun b => 0 < bL b)%R bs -> Forall CK kl.
Proof.
  intros B W P. induction B as [|c b kl bs (E1 & E2 & E3 & E4 & E5) B IH]; constructor.
  - inversion W as [|? ? (W1 & W2 & _)]; inversion P; subst. constructor; rewrite ?E1, ?E2, ?E3, ?E4, ?E5; try (eexists; reflexivity).
    + exists (bL b). split; [reflexivity|assumption].
    + exists (bC b). split; [reflexivity|lra].
    + intros Q. injection Q as Q. f_equal. lra.
  - inversion W; inversion P; subst. now apply IH.
Qed.
