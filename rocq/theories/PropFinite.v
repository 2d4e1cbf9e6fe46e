(** * PropFinite: C92, which output numbers are finite. *)
From Coq Require Import Reals Lra ZArith Lia Bool List.
From Verif Require Import Base Num XReal Containers Ta SpecTa Sides Klines SpecBar IndBase IndTrend IndChannel IndVolume IndOsc IndAll
  IndForms5 PropInd8 Finite FiniteInd SpecFinite FiniteBad.
Import ListNotations.
Set Implicit Arguments.
Open Scope Z_scope.
Local Notation X := (@F XR).

(** ** Specification: one line per indicator type.  [fiNums] lists every number of an
    output row, [fiOk] says which parameters are asked for, [fiBad p bs i] says when
    row [i] over the bars [bs] holds a number that is not finite. *)
Record Finite := mkFinite {
  fiI : Indicator (N := XR); fiNums : Val fiI -> list X; fiOk : Param fiI -> Prop;
  fiBad : Param fiI -> list bar -> nat -> Prop }.
(** rows that are always finite: of one number, of several *)
Definition one (I : Indicator (N := XR)) (E : Val I = X) (ok : Param I -> Prop) : Finite :=
  mkFinite I (fun v => [eq_rect _ (fun T => T) v _ E]) ok (fun _ _ _ => False).
Definition many (I : Indicator (N := XR)) (f : Val I -> list X) (ok : Param I -> Prop) : Finite :=
  mkFinite I f ok (fun _ _ _ => False).
Definition period (p : Z) : Prop := 1 <= p.
Definition any {A} (_ : A) : Prop := True.
Definition finite_map : list Finite :=
  [ one I_Ma eq_refl period;
    one I_Rsi eq_refl any;
    many I_StochRsi (fun v => [kdK v; kdD v]) (fun p => 1 <= srK p /\ 1 <= srD p);
    mkFinite I_Cci (fun v => [v]) (fun p => 1 <= cciPeriod p /\ 1 <= cciSma p)
      (fun p bs i => cciPeriod p - 1 <= Z.of_nat i /\
        forall b, In b (window bs i (Z.to_nat (cciPeriod p))) -> typical b = mean (window (map typical bs) i (Z.to_nat (cciSma p))));
    one I_AiCoinCCI eq_refl any;
    mkFinite I_Vortex (fun v => [vPlus v; vMinus v]) period
      (fun p bs i => (1 <= i)%nat /\ forall j, (1 <= j <= i)%nat -> Z.of_nat i - p < Z.of_nat j -> still bs j);
    many I_StochasticHeat (fun v => [hvFast v; hvSlow v]) (fun p => 1 <= hFast p /\ 1 <= hSlow p /\ hPlot p <> 0);
    many I_Donchian (fun v => [bUpper v; bMiddle v; bLower v]) any;
    many I_Keltner (fun v => [bUpper v; bMiddle v; bLower v]) period;
    one I_Ulcer eq_refl period;
    one I_AD eq_refl any;
    one I_CMF eq_refl any;
    one I_EMV eq_refl period;
    one I_Force eq_refl period;
    one I_MFI eq_refl period;
    one I_NVI eq_refl any;
    one I_Obv eq_refl any;
    one I_VPT eq_refl any;
    one I_Vwma eq_refl any;
    one I_AO eq_refl any;
    many I_Chaikin (fun v => [coValue v; coAD v]) (fun p => 1 <= fsFast p /\ 1 <= fsSlow p);
    many I_Ichimoku (fun v => [iConv v; iBase v; iSpanA v; iSpanB v; iLag v]) any;
    many I_PPO (fun v => [ppoV v; ppoSignal v; ppoHist v]) (fun p => 1 <= poFast p /\ 1 <= poSlow p /\ 1 <= poSignal p);
    many I_Projection (fun v => [pjPo v; pjSpo v]) (fun p => 1 <= pjSmooth p);
    many I_Stoch (fun v => [kdK v; kdD v]) any;
    mkFinite I_Williams (fun v => [v]) period (fun p bs i => one_price (window bs i (Z.to_nat p)));
    one I_Sma eq_refl period;
    one I_Ema eq_refl period;
    one I_Dema eq_refl period;
    many I_Macd (fun v => [mDIF v; mDEA v; mMacd v]) (fun p => 1 <= mShort p /\ 1 <= mSignal p /\ 1 <= mLong p);
    many I_Kdj (fun v => [kRSV v; kK v; kD v; kJ v]) any;
    many I_Atr (fun v => [aTR v; aAtr v]) period;
    many I_LRC (fun v => [lcOpen v; lcClose v; lcHigh v; lcLow v; lcSignal v]) (fun p => 2 <= lrLength p /\ 1 <= lrSmooth p);
    many I_Reversal (fun _ => []) any;
    many I_BreakoutProbability (fun v => bvWin v :: bvLoss v :: flat_map (fun it => [biPrice it; biPer it]) (bvList v)) (fun p => finite (bpStep p));
    many I_SuperTrend (fun v => [sUp v; sUpBegin v; sDn v; sDnBegin v]) (fun p => 1 <= stPeriod p);
    many I_PPST (fun v => [sUp v; sUpBegin v; sDn v; sDnBegin v]) (fun p => finite (ppFactor p));
    many I_UTBot (fun v => [uClose v; uValue v]) any;
    many I_TraderXO (fun v => [xFast v; xSlow v]) (fun p => 1 <= xFastP p /\ 1 <= xSlowP p);
    many I_EMAVegas (fun v => [gV v; gS1 v; gS2 v; gL1 v; gL2 v]) (fun p => 1 <= vgP p /\ 1 <= vgS1 p /\ 1 <= vgS2 p /\ 1 <= vgL1 p /\ 1 <= vgL2 p);
    mkFinite I_ADX (fun v => [axPlus v; axMinus v; axADX v]) (fun p => 1 <= axPeriod p /\ 1 <= axLen p)
      (fun p bs i => axPeriod p - 1 <= Z.of_nat i /\ forall j, (1 <= j <= i)%nat -> (axLen p = 1 -> j = i) -> still bs j);
    many I_Boll (fun v => [blUpper v; blMiddle v; blLower v; blMD v]) (fun p => 1 <= blN p);
    one I_APO eq_refl (fun p => 1 <= fsFast p /\ 1 <= fsSlow p);
    many I_Camarilla (fun v => [caEMA v; caPivot v; caH1 v; caH2 v; caH3 v; caH4 v; caH5 v; caH6 v; caL1 v; caL2 v; caL3 v; caL4 v; caL5 v; caL6 v]) (fun p => 1 <= camEMA p);
    one I_VOsc eq_refl (fun p => 1 <= fsFast p /\ 1 <= fsSlow p);
    one I_Rma eq_refl period ].

(** ** C92 *)
(** the table has one line for every indicator type, in the order of the catalogue *)
Theorem C92_complete : map fiI finite_map = all_indicators.
Proof. reflexivity. Qed.
Print Assumptions C92_complete.

Lemma always A (P : A -> Prop) (m : res (list (row A))) rows i r : Kp (Forall (rowK P)) m -> m = Ok rows -> nth_error rows i = Some r -> P (rVal r).
Proof. intros H E Hr. rewrite E in H. cbn [Kp] in H. rewrite Forall_forall in H. apply H. now apply nth_error_In in Hr. Qed.
Lemma fine (P : Prop) : P -> (P <-> ~ False).
Proof. tauto. Qed.
Lemma Fis1 (x : X) : Fi x -> Forall finite [x].
Proof. intros H. constructor; [exact H|constructor]. Qed.
Lemma Fis1_iff (x : X) (P : Prop) : (Fi x <-> P) -> (Forall finite [x] <-> P).
Proof. intros <-. split; [apply (@Forall_inv _ finite)|apply Fis1]. Qed.
Ltac lines H := unfold finite_map in H; cbn [In] in H; repeat (destruct H as [<-|H]); try (destruct H).
Ltac ands := repeat match goal with H : _ /\ _ |- _ => destruct H end.

(** Exact arithmetic, prices above 0, periods of at least 1: every number of every row is
    finite, with four exceptions.  Williams %R is not when its window holds one price
    only; the vortex lines when no bar of the window left the previous close; the
    directional lines when no bar left the previous close since the start (for a
    smoothing length of 1: the last bar); the CCI when every typical price of its window
    equals the moving average. *)
Theorem C92_finite (e : Finite) (p : Param (fiI e)) kl bs rows i r :
  In e finite_map -> fiOk e p -> market kl bs -> rows_of (fiI e) p kl = Ok rows -> nth_error rows i = Some r ->
  (Forall finite (fiNums e (rVal r)) <-> ~ fiBad e p bs i).
Proof.
  intros H Hp M E Hr. pose proof M as (B & W & P). pose proof (bars_CK B W P) as K.
  lines H; cbn [fiI fiNums fiOk fiBad one many eq_rect] in *; cbn [Param] in p; unfold any, period in Hp; ands.
  - apply fine, Fis1. eapply always; [apply Ma_k|exact E|exact Hr]; assumption.
  - apply fine, Fis1. eapply always; [apply Rsi_k|exact E|exact Hr]; assumption.
  - apply fine. exact (@always _ _ _ _ _ _ (StochRsi_k K ltac:(eassumption) ltac:(eassumption)) E Hr).
  - apply Fis1_iff. eapply Cci_bad; eassumption.
  - apply fine, Fis1. eapply always; [apply AiCoin_k|exact E|exact Hr]; assumption.
  - eapply Vortex_bad; eassumption.
  - apply fine. exact (@always _ _ _ _ _ _ (Heat_k K ltac:(eassumption) ltac:(eassumption) ltac:(eassumption)) E Hr).
  - apply fine. exact (@always _ _ _ _ _ _ (Donchian_k K _) E Hr).
  - apply fine. exact (@always _ _ _ _ _ _ (Keltner_k K ltac:(eassumption)) E Hr).
  - apply fine, Fis1. eapply always; [apply Ulcer_k|exact E|exact Hr]; assumption.
  - apply fine, Fis1. eapply always; [apply AD_k|exact E|exact Hr]; assumption.
  - apply fine, Fis1. eapply always; [apply CMF_k|exact E|exact Hr]; assumption.
  - apply fine, Fis1. eapply always; [apply EMV_k|exact E|exact Hr]; assumption.
  - apply fine, Fis1. eapply always; [apply Force_k|exact E|exact Hr]; assumption.
  - apply fine, Fis1. eapply always; [eapply MFI_k|exact E|exact Hr]; eassumption.
  - apply fine, Fis1. eapply always; [apply NVI_k|exact E|exact Hr]; assumption.
  - apply fine, Fis1. eapply always; [apply Obv_k|exact E|exact Hr]; assumption.
  - apply fine, Fis1. eapply always; [apply VPT_k|exact E|exact Hr]; assumption.
  - apply fine, Fis1. eapply always; [apply Vwma_k|exact E|exact Hr]; assumption.
  - apply fine, Fis1. eapply always; [apply AO_k|exact E|exact Hr]; assumption.
  - apply fine. exact (@always _ _ _ _ _ _ (Chaikin_k K ltac:(eassumption) ltac:(eassumption)) E Hr).
  - apply fine. exact (@always _ _ _ _ _ _ (Ichi_k K _) E Hr).
  - apply fine. exact (@always _ _ _ _ _ _ (PPO_k K ltac:(eassumption) ltac:(eassumption) ltac:(eassumption)) E Hr).
  - apply fine. exact (@always _ _ _ _ _ _ (Projection_k K ltac:(eassumption)) E Hr).
  - apply fine. exact (@always _ _ _ _ _ _ (Stoch_k K _) E Hr).
  - apply Fis1_iff. eapply Williams_bad; eassumption.
  - apply fine, Fis1. eapply always; [apply Sma_k|exact E|exact Hr]; assumption.
  - apply fine, Fis1. eapply always; [apply Ema_k|exact E|exact Hr]; assumption.
  - apply fine, Fis1. eapply always; [apply Dema_k|exact E|exact Hr]; assumption.
  - apply fine. exact (@always _ _ _ _ _ _ (Macd_k K ltac:(eassumption) ltac:(eassumption) ltac:(eassumption)) E Hr).
  - apply fine. exact (@always _ _ _ _ _ _ (Kdj_k K _) E Hr).
  - apply fine. exact (@always _ _ _ _ _ _ (Atr_k K ltac:(eassumption)) E Hr).
  - apply fine. exact (@always _ _ _ _ _ _ (LRC_k K ltac:(eassumption) ltac:(eassumption)) E Hr).
  - apply fine. constructor.
  - apply fine. exact (@always _ _ _ _ _ _ (BP_k K ltac:(eassumption)) E Hr).
  - apply fine. exact (@always _ _ _ _ _ _ (SuperTrend_k K ltac:(eassumption)) E Hr).
  - apply fine. exact (@always _ _ _ _ _ _ (PPST_k K ltac:(eassumption)) E Hr).
  - apply fine. exact (@always _ _ _ _ _ _ (UTBot_k K _) E Hr).
  - apply fine. exact (@always _ _ _ _ _ _ (TraderXO_k K ltac:(eassumption) ltac:(eassumption)) E Hr).
  - apply fine. exact (@always _ _ _ _ _ _ (Vegas_k K ltac:(eassumption) ltac:(eassumption) ltac:(eassumption) ltac:(eassumption) ltac:(eassumption)) E Hr).
  - eapply ADX_bad; eassumption.
  - apply fine. exact (@always _ _ _ _ _ _ (Boll_k B ltac:(eassumption)) E Hr).
  - apply fine, Fis1. eapply always; [apply APO_k|exact E|exact Hr]; assumption.
  - apply fine. exact (@always _ _ _ _ _ _ (Camarilla_k K ltac:(eassumption)) E Hr).
  - apply fine, Fis1. eapply always; [apply VOsc_k|exact E|exact Hr]; assumption.
  - apply fine, Fis1. eapply always; [apply Rma_k|exact E|exact Hr]; assumption.
Qed.
Print Assumptions C92_finite.

(** three bars whose last two never leave the close 5, and the same with a last bar that does *)
Definition ex_bars (h : R) : list bar := [mkBar 4 6 3 5 10; mkBar 5 5 5 5 7; mkBar 5 h 5 5 8].
Definition ex_candle (b : bar) : Candle (N := XR) := mkCandle (N := XR) (Fin 0) 0 (Fin (bO b)) (Fin (bC b)) (Fin (bL b)) (Fin (bH b)) (Fin (bV b)) (Fin 0) false 60.
Lemma ex_market h : (5 <= h)%R -> market (map ex_candle (ex_bars h)) (ex_bars h).
Proof.
  intros H. unfold ex_bars. cbn [map]. split; [repeat constructor|]. split; repeat (apply Forall_cons; [unfold well_formed; cbn; lra|]); apply Forall_nil.
Qed.
Example C92_hyp : exists rows rows' r r',
  rows_of (N := XR) I_Vortex 2 (map ex_candle (ex_bars 5)) = Ok rows /\ nth_error rows 2 = Some r /\ ~ Forall finite [vPlus (rVal r); vMinus (rVal r)] /\
  rows_of (N := XR) I_Vortex 2 (map ex_candle (ex_bars 6)) = Ok rows' /\ nth_error rows' 2 = Some r' /\ Forall finite [vPlus (rVal r'); vMinus (rVal r')].
Proof.
  assert (T : forall h, exists rows r, rows_of (N := XR) I_Vortex 2 (map ex_candle (ex_bars h)) = Ok rows /\ nth_error rows 2 = Some r).
  { intros h. rewrite (@Vortex_T XR) by lia. do 2 eexists. split; [reflexivity|]. reflexivity. }
  destruct (T 5%R) as (rows & r & E & Hr), (T 6%R) as (rows' & r' & E' & Hr').
  set (e := mkFinite I_Vortex (fun v => [vPlus v; vMinus v]) period
      (fun p bs i => (1 <= i)%nat /\ forall j, (1 <= j <= i)%nat -> Z.of_nat i - p < Z.of_nat j -> still bs j)).
  assert (I : In e finite_map) by (unfold e, finite_map; cbn [In]; tauto).
  pose proof (@C92_finite e 2 _ _ rows 2 r I ltac:(cbn; red; lia) (@ex_market 5 ltac:(lra)) E Hr) as Q.
  pose proof (@C92_finite e 2 _ _ rows' 2 r' I ltac:(cbn; red; lia) (@ex_market 6 ltac:(lra)) E' Hr') as Q'.
  exists rows, rows', r, r'. split; [exact E|]. split; [exact Hr|]. split; [|split; [exact E'|split; [exact Hr'|]]].
  - intros F. apply (proj1 Q F). split; [lia|]. intros j Hj _. destruct j as [|[|[|]]]; try lia; do 2 eexists; (split; [reflexivity|]); (split; [reflexivity|]); cbn; lra.
  - apply (proj2 Q'). intros [_ A]. destruct (A 2%nat ltac:(lia) ltac:(lia)) as (b' & b & E1 & E2 & E3 & _). cbn in E1, E2. injection E1 as <-. injection E2 as <-. cbn in E3. lra.
Qed.
