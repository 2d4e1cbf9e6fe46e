(** * PropInd1: properties C26, C39, C40, C41 and C64.

    The specification vocabulary is in SpecInd.v; [append_style] and [make_style]
    (IndAll.v) list every indicator type of trend/, channel/, volume/ and
    oscillator/ but Rma and SmartMoneyConcepts. *)
From Verif Require Import Base Num B64 XReal Lits Sides Klines CountLaw
  IndBase IndTrend IndChannel IndVolume IndOsc IndAll IndSides SpecInd IndLife IndTimes IndSignals.
Set Implicit Arguments.

(** a candle: open high low close volume time *)
Definition kd (o h l c v t : Z) : Candle (N := EX) :=
  mkCandle (fz 0) 0 (fz o) (fz c) (fz l) (fz h) (fz v) (fz 0) (o <? c) t.
(** flat candles with the given closes *)
Definition flat (l : list Z) : list (Candle (N := EX)) := map (fun c => kd c (c + 1) (c - 1) c 1 60) l.
(** the ProjectionOscillator computes its x axis as a float64 range, which has the
    wrong length beyond 2^53 candles *)
Definition counts (N : Num) (I : Indicator (N := N)) (k : nat) : Prop :=
  iname I = iname (N := N) I_Projection -> CountLaw N /\ Z.of_nat k <= 2 ^ 53.

(** ** C39 *)
Theorem C39_rows_partial (N : Num) (I : Indicator (N := N)) (p : Param I) (kl later : list Candle) (r r' : list (row (Val I))) :
  In I append_style \/ In I make_style -> counts I (length (kl ++ later)) ->
  rows_of I p kl = Ok r -> rows_of I p (kl ++ later) = Ok r' -> firstn (length kl) r' = r.
Proof. exact (@rows_repaint N I p kl later r r'). Qed.
Print Assumptions C39_rows_partial.
Theorem C39_sides (N : Num) (I : Indicator (N := N)) (p : Param I) (kl later : list Candle) (s s' : list Side) :
  In I append_style \/ In I make_style -> counts I (length (kl ++ later)) ->
  sides_of I p kl = Ok s -> sides_of I p (kl ++ later) = Ok s' -> firstn (length kl) s' = s.
Proof. exact (@sides_repaint N I p kl later s s'). Qed.
Print Assumptions C39_sides.
(** Go's float64: no condition but 2^53 candles *)
Theorem C39_float64 (L : MathLib) (I : Indicator (N := B64 L)) (p : Param I) (kl later : list Candle) (r r' : list (row (Val I))) :
  In I append_style \/ In I make_style -> Z.of_nat (length (kl ++ later)) <= 2 ^ 53 ->
  rows_of I p kl = Ok r -> rows_of I p (kl ++ later) = Ok r' -> firstn (length kl) r' = r.
Proof. exact (fun HI Hk => @rows_repaint (B64 L) I p kl later r r' HI (fun _ => conj (B64_count L) Hk)). Qed.
Print Assumptions C39_float64.
(** Rma reports 2n rows: the values move when candles are added *)
Theorem C39_Rma_refuted : ~ never_repaints (N := EX) (rows_of I_Rma 1).
Proof.
  intros H. specialize (H (flat [5]) (flat [6]) _ _ eq_refl eq_refl). discriminate H.
Qed.
Print Assumptions C39_Rma_refuted.

Example C39_hyp :
  rmap (map (fun x => mDIF (rVal x) ==~ fz 0)) (rows_of I_Macd (mkMacdP 2 2 3) (flat [5; 6; 9])) = Ok [true; false; false] /\
  rmap (map (fun x => mDIF (rVal x) ==~ fz 0)) (rows_of I_Macd (mkMacdP 2 2 3) (flat [5; 6; 9] ++ flat [1; 2])) = Ok [true; false; false; false; false].
Proof. split; vm_compute; reflexivity. Qed.
Example C39_sides_hyp : sides_of I_Donchian 2 (flat [5; 6; 9; 1]) = Ok [Buy; Hold; Hold; Sell] /\
  sides_of I_Donchian 2 (flat [5; 6; 9; 1] ++ flat [7]) = Ok [Buy; Hold; Hold; Sell; Buy].
Proof. split; vm_compute; reflexivity. Qed.

(** ** C40 *)
Theorem C40_rows_partial (N : Num) (I : Indicator (N := N)) (p : Param I) (kl : list Candle) (r : list (row (Val I))) :
  In I append_style \/ In I make_style -> counts I (length kl) ->
  rows_of I p kl = Ok r -> length r = length kl.
Proof. exact (@rows_one N I p kl r). Qed.
Print Assumptions C40_rows_partial.
Theorem C40_sides (N : Num) (I : Indicator (N := N)) (p : Param I) (kl : list Candle) (s : list Side) :
  In I append_style \/ In I make_style -> counts I (length kl) ->
  sides_of I p kl = Ok s -> length s = length kl.
Proof. exact (@sides_one N I p kl s). Qed.
Print Assumptions C40_sides.
(** and row i carries the time of candle i, except row 0 of three types *)
Theorem C40_times (N : Num) (I : Indicator (N := N)) (p : Param I) (kl : list Candle) (r : list (row (Val I)))
    (i : nat) (x : row (Val I)) (c : Candle) :
  In I append_style \/ In I make_style -> counts I (length kl) -> rows_of I p kl = Ok r ->
  nth_error r i = Some x -> nth_error kl i = Some c ->
  (i = 0%nat -> I <> I_PPST /\ I <> I_UTBot /\ I <> I_BreakoutProbability) ->
  rTime x = unix (cTime c).
Proof.
  intros HI Hk E Hx Hc H0.
  assert (S : exists lo, (lo <= i)%nat /\ stamps I lo).
  { destruct HI as [HI|HI]; [exists 0%nat; split; [lia|now apply append_stamps]|].
    apply make_stamps in HI as [S1 S0]. destruct i as [|i]; [exists 0%nat|exists 1%nat; split; [lia|exact S1]].
    split; [lia|]. apply S0. destruct (H0 eq_refl) as (? & ? & ?). intros [?|[?|?]]; congruence. }
  destruct S as (lo & Hlo & S). exact (S p kl Hk r r E E i x c Hlo Hx Hc).
Qed.
Print Assumptions C40_times.
Theorem C40_first_time_zero (N : Num) (I : Indicator (N := N)) (p : Param I) (kl : list Candle) (r : list (row (Val I))) :
  I = I_PPST \/ I = I_UTBot \/ I = I_BreakoutProbability -> kl <> [] -> rows_of I p kl = Ok r ->
  exists x, nth_error r 0 = Some x /\ rTime x = zero_time.
Proof. exact (@late_zero N I p kl r). Qed.
Print Assumptions C40_first_time_zero.
Theorem C40_Rma_refuted : exists r, rows_of (N := EX) I_Rma 1 (flat [5]) = Ok r /\ length r = 2%nat.
Proof. eexists. split; reflexivity. Qed.
Print Assumptions C40_Rma_refuted.
Example C40_hyp : rmap (length (A := _)) (rows_of I_Kdj 2 (flat [5; 6; 9])) = Ok 3%nat /\
  sides_of I_Kdj 2 (flat [5; 6; 9]) = Ok [Buy; Hold; Hold].
Proof. split; vm_compute; reflexivity. Qed.
Example C40_times_hyp : rmap (map (fun x => rTime x)) (rows_of I_UTBot (mkUTP 1 2) (flat [5; 6; 9])) = Ok [zero_time; unix 60; unix 60] /\
  rmap (map (fun x => rTime x)) (rows_of I_TraderXO (mkXOP 1 2) (flat [5; 6])) = Ok [unix 60; unix 60].
Proof. split; vm_compute; reflexivity. Qed.

(** ** C41 *)
(** Any sequence of reads on one object: each answers as if it were the first. *)
Theorem C41_reads (N : Num) (I : Indicator (N := N)) (p : Param I) (kl : list Candle) (ops : list op) (l : list (answer (Val I))) :
  ~ In CallCalculation ops -> calls I p kl ops [] = Ok l -> Forall2 (as_first I p kl) ops l.
Proof. exact (fun H => @calls_reads N I p kl ops [] H (or_introl eq_refl) l). Qed.
Print Assumptions C41_reads.
(** With Calculation calls among them: the types that replace their data. *)
Theorem C41_Calculation_partial (N : Num) (I : Indicator (N := N)) (p : Param I) (kl : list Candle) (ops : list op) (l : list (answer (Val I))) :
  In I make_style -> calls I p kl ops [] = Ok l -> Forall2 (as_first I p kl) ops l.
Proof. exact (fun H => @calls_make N I p kl ops [] H (or_introl eq_refl) l). Qed.
Print Assumptions C41_Calculation_partial.
(** The other 26 types append the same rows again, whatever the data. *)
Theorem C41_appends (N : Num) (I : Indicator (N := N)) (p : Param I) (kl : list Candle) (rows : list (row (Val I))) :
  In I append_style -> rows_of I p kl = Ok rows ->
  calls I p kl [CallGetData; CallCalculation] [] = Ok [Rows rows; Done] /\
  Calculation I p kl rows = Ok (rows ++ rows).
Proof.
  intros HI E. pose proof (append_again _ _ HI E) as A. split; [|exact A].
  cbn [calls call]. unfold rows_of in E. rewrite E. cbn [bind]. rewrite A. reflexivity.
Qed.
Print Assumptions C41_appends.
Theorem C41_refuted : exists r r', calls (N := EX) I_Obv tt (flat [5; 6]) [CallGetData; CallCalculation; CallGetData] [] = Ok [Rows r; Done; Rows r'] /\
  length r = 2%nat /\ length r' = 4%nat.
Proof. do 2 eexists. split; [reflexivity|]. split; reflexivity. Qed.
Print Assumptions C41_refuted.
Example C41_hyp : rmap (length (A := _)) (calls (N := EX) I_SuperTrend (mkSTP 2 3 true) (flat [5; 6; 9])
    [CallCalculation; CallAnalysisSide; CallGetData; CallCalculation; CallGetData] []) = Ok 5%nat /\
  rmap (length (A := _)) (calls (N := EX) I_Rsi 2 (flat [5; 6; 9]) [CallAnalysisSide; CallGetData; CallAnalysisSide] []) = Ok 3%nat.
Proof. split; vm_compute; reflexivity. Qed.

(** ** C26 *)
(** The zero value of Side is Buy: bar 0, which these strategies skip, reports Buy, for every input. *)
Theorem C26_refuted (N : Num) (I : Indicator (N := N)) (p : Param I) (kl : list Candle) (s : list Side) :
  In I [I_Rsi; I_StochRsi; I_Macd; I_Kdj; I_Cci; I_AiCoinCCI; I_StochasticHeat; I_SuperTrend; I_PPST; I_UTBot;
        I_EMAVegas; I_Boll; I_Donchian; I_Keltner; I_MFI; I_APO; I_AO; I_Chaikin; I_PPO; I_Projection;
        I_Stoch; I_Williams] ->
  counts I (length kl) -> kl <> [] -> sides_of I p kl = Ok s -> nth_error s 0 = Some Buy.
Proof. exact (fun HI Hc Hk E => @first_is_buy N I p kl s HI Hk Hc E). Qed.
Print Assumptions C26_refuted.
(** EMAVegas skips eleven bars, IchimokuCloud as many as its conversion period *)
Theorem C26_EMAVegas_refuted (N : Num) (p : VegasP) (kl : list Candle) (s : list Side) (i : nat) :
  sides_of I_EMAVegas p kl = Ok s -> (i < 11)%nat -> (i < length kl)%nat -> nth_error s i = Some Buy.
Proof.
  intros E Hi Hl. apply (@sides_inv N I_EMAVegas) in E as (f & rows & Hs & Er & Ef). cbn in Hs. injection Hs as <-.
  apply vegas_inv with (i := i) in Ef; [apply Ef; lia| |exact Hl].
  apply (@rows_one N I_EMAVegas p); [right; cbn; tauto|discriminate|exact Er].
Qed.
Print Assumptions C26_EMAVegas_refuted.
Theorem C26_Ichimoku_refuted (N : Num) (p : IchiP) (kl : list Candle) (s : list Side) (i : nat) :
  sides_of I_Ichimoku p kl = Ok s -> Z.of_nat i < icConv p -> (i < length kl)%nat -> nth_error s i = Some Buy.
Proof.
  intros E Hi Hl. apply (@sides_inv N I_Ichimoku) in E as (f & rows & Hs & Er & Ef). cbn in Hs. injection Hs as <-.
  unfold ichi_sides in Ef. rewrite KlineProofs3.GetOHLC_spec in Ef. cbn [bind] in Ef.
  eapply analyse_first; [exact Ef|exact Hi|exact Hl].
Qed.
Print Assumptions C26_Ichimoku_refuted.
(** What holds: TraderXO writes Hold there; Camarilla skips no bar. *)
Theorem C26_TraderXO_partial (N : Num) (p : XOP) (kl : list Candle) (s : list Side) :
  sides_of I_TraderXO p kl = Ok s -> kl <> [] -> nth_error s 0 = Some Hold.
Proof. exact (@traderxo_first N p kl s). Qed.
Print Assumptions C26_TraderXO_partial.
Example C26_hyp : sides_of I_Macd (mkMacdP 2 2 3) (flat [5; 6; 9]) = Ok [Buy; Hold; Hold] /\
  sides_of I_Ichimoku (mkIchiP 2 3 1) (flat [5; 6; 9]) = Ok [Buy; Buy; Hold] /\
  sides_of I_TraderXO (mkXOP 1 2) (flat [5; 6; 9]) = Ok [Hold; Buy; Hold].
Proof. repeat split; vm_compute; reflexivity. Qed.

(** ** C64 *)
Ltac crossing_tac :=
  eapply follows_crossing; [eexists; split; [reflexivity|intros; reflexivity]|..];
  intros; cbn beta; rewrite ?andb_true_iff; tauto.
Ltac own_tac :=
  eapply follows_own; [eexists; split; [reflexivity|intros; reflexivity]|..];
  intros; cbn beta; rewrite ?andb_true_iff, ?negb_true_iff; tauto.
Ltac price_tac :=
  eapply follows_price; [eexists; split; [reflexivity|intros; reflexivity]|..];
  intros; cbn beta; rewrite ?andb_true_iff; tauto.
Section Rules.
Context {N : Num}.
Local Notation "x < y" := ((x <~ y) = true).
Local Notation "x > y" := ((x >~ y) = true).

Theorem C64_Rsi p : follows I_Rsi p 1 (fun _ _ v w => v < ofZ 20 /\ w > ofZ 20) (fun _ _ v w => v < ofZ 80 /\ w > ofZ 80).
Proof. crossing_tac. Qed.
Theorem C64_StochRsi p : follows I_StochRsi p 1 (fun _ _ v w => kdK v > kdD v /\ kdK w < kdD w) (fun _ _ v w => kdK v < kdD v /\ kdK w > kdD w).
Proof. crossing_tac. Qed.
Theorem C64_Stoch p : follows I_Stoch p 1 (fun _ _ v w => kdK v > kdD v /\ kdK w < kdD w) (fun _ _ v w => kdK v < kdD v /\ kdK w > kdD w).
Proof. crossing_tac. Qed.
Theorem C64_Macd p : follows I_Macd p 1
  (fun _ _ v w => mDIF v > ofZ 0 /\ mDEA v > ofZ 0 /\ mDIF v > mDEA v /\ mDIF w < mDEA w)
  (fun _ _ v w => mDIF v < ofZ 0 /\ mDEA v < ofZ 0 /\ mDIF v < mDEA v /\ mDIF w > mDEA w).
Proof. crossing_tac. Qed.
Theorem C64_Kdj p : follows I_Kdj p 1
  (fun _ _ v w => kK v > kD v /\ kJ v > kD v /\ kK w < kD w /\ kJ w < kD w)
  (fun _ _ v w => kK v < kD v /\ kJ v < kD v /\ kK w > kD w /\ kJ w > kD w).
Proof. crossing_tac. Qed.
Theorem C64_Cci p : follows I_Cci p 1 (fun _ _ v w => v < ofZ (-100) /\ w > ofZ (-100)) (fun _ _ v w => v > ofZ 100 /\ w < ofZ 100).
Proof. crossing_tac. Qed.
Theorem C64_AiCoinCCI p : follows I_AiCoinCCI p 1 (fun _ _ v w => v < ofZ (-100) /\ w > ofZ (-100)) (fun _ _ v w => v > ofZ 100 /\ w < ofZ 100).
Proof. crossing_tac. Qed.
Theorem C64_StochasticHeat p : follows I_StochasticHeat p 1
  (fun _ _ v w => hvSlow w < hvFast w /\ hvSlow v > hvFast v) (fun _ _ v w => hvSlow w > hvFast w /\ hvSlow v < hvFast v).
Proof. crossing_tac. Qed.
Theorem C64_MFI p : follows I_MFI p 1 (fun _ _ v w => v < ofZ 10 /\ w > ofZ 10) (fun _ _ v w => v > ofZ 90 /\ w < ofZ 90).
Proof. crossing_tac. Qed.
Theorem C64_APO p : follows I_APO p 1 (fun _ _ v w => v > ofZ 0 /\ w < ofZ 0) (fun _ _ v w => v < ofZ 0 /\ w > ofZ 0).
Proof. crossing_tac. Qed.
Theorem C64_AO p : follows I_AO p 1 (fun _ _ v w => v > ofZ 0 /\ w < ofZ 0) (fun _ _ v w => v < ofZ 0 /\ w > ofZ 0).
Proof. crossing_tac. Qed.
Theorem C64_Chaikin p : follows I_Chaikin p 1
  (fun _ _ v w => coValue v > ofZ 0 /\ coValue w < ofZ 0) (fun _ _ v w => coValue v < ofZ 0 /\ coValue w > ofZ 0).
Proof. crossing_tac. Qed.
Theorem C64_PPO p : follows I_PPO p 1
  (fun _ _ v w => ppoV v > ppoSignal v /\ ppoV w < ppoSignal w) (fun _ _ v w => ppoV v < ppoSignal v /\ ppoV w > ppoSignal w).
Proof. crossing_tac. Qed.
Theorem C64_Projection p : follows I_Projection p 1 (fun _ _ v _ => pjPo v > pjSpo v) (fun _ _ v _ => pjPo v < pjSpo v).
Proof. eapply follows_crossing; [eexists; split; [reflexivity|intros; reflexivity]|..]; reflexivity. Qed.
Theorem C64_WilliamsR p : follows I_Williams p 1
  (fun _ _ v w => v < ofZ (-80) /\ w > ofZ (-80)) (fun _ _ v w => v > ofZ (-20) /\ w < ofZ (-20)).
Proof. crossing_tac. Qed.
Theorem C64_Boll p : follows I_Boll p 1
  (fun c c' v w => cClose c > blUpper v /\ cClose c' < blUpper w)
  (fun c c' v w => cClose c < blLower v /\ cClose c' > cClose c').
Proof. price_tac. Qed.
Theorem C64_Donchian p : follows I_Donchian p 1
  (fun c c' v w => cClose c > bMiddle v /\ cClose c' < bMiddle w) (fun c c' v w => cClose c < bMiddle v /\ cClose c' > bMiddle w).
Proof. price_tac. Qed.
Theorem C64_Keltner p : follows I_Keltner p 1
  (fun c c' v w => cClose c > bMiddle v /\ cClose c' < bMiddle w) (fun c c' v w => cClose c < bMiddle v /\ cClose c' > bMiddle w).
Proof. price_tac. Qed.
Theorem C64_Ichimoku p : follows I_Ichimoku p (icConv p)
  (fun c c' v w => cClose c > iSpanA v /\ cClose c > iSpanB v /\ cClose c' < iSpanA w /\ cClose c' < iSpanB w)
  (fun c c' v w => cClose c < iSpanA v /\ cClose c < iSpanB v /\ cClose c' > iSpanA w /\ cClose c' > iSpanB w).
Proof. price_tac. Qed.
Theorem C64_SuperTrend p : follows I_SuperTrend p 1
  (fun _ _ v _ => (sUpBegin v ==~ ofZ 0) = false) (fun _ _ v _ => (sDnBegin v ==~ ofZ 0) = false).
Proof. own_tac. Qed.
Theorem C64_PivotPointSuperTrend p : follows I_PPST p 1
  (fun _ _ v _ => (sUpBegin v ==~ ofZ 0) = false) (fun _ _ v _ => (sDnBegin v ==~ ofZ 0) = false).
Proof. own_tac. Qed.
Theorem C64_UTBot p : follows I_UTBot p 1
  (fun _ _ v w => uClose v > uValue v /\ uClose w < uValue w) (fun _ _ v w => uClose v < uValue v /\ uClose w > uValue w).
Proof. own_tac. Qed.

(** TraderXO: see C48.  EMAVegas looks for a cross of the second short line and the
    second long line among the ten bars before. *)
Theorem C64_EMAVegas (p : VegasP) (kl : list Candle) (rows : list (row VegasV)) (s : list Side) (i : nat) (c : Candle) (v : row VegasV) (d : Side) :
  rows_of I_EMAVegas p kl = Ok rows -> sides_of I_EMAVegas p kl = Ok s -> (11 <= i)%nat ->
  nth_error kl i = Some c -> nth_error rows i = Some v -> nth_error s i = Some d ->
  let g := rVal v in
  let crossed (R : VegasV -> Prop) (R' : VegasV -> Prop) := exists k x y, (i - 10 <= k < i)%nat /\
    nth_error rows k = Some x /\ nth_error rows (pred k) = Some y /\ R (rVal x) /\ R' (rVal y) in
  signal
    (gV g > gS1 g /\ gS1 g > gL1 g /\ gS1 g > gL2 g /\ gS2 g > gL1 g /\ gS2 g > gL2 g /\ cBull c = true /\
     crossed (fun x => gS2 x > gL2 x) (fun y => gS2 y < gL2 y))
    (gV g < gS1 g /\ gS1 g < gL1 g /\ gS1 g < gL2 g /\ gS2 g < gL1 g /\ gS2 g < gL2 g /\ cBull c = false /\
     crossed (fun x => gS2 x < gL2 x) (fun y => gS2 y > gL2 y)) d.
Proof. exact (@vegas_rule N p kl rows s i c v d). Qed.

(** Camarilla compares the bar with the fourth level of the daily candles in force:
    [levels i] are the levels of the first daily candle of the calendar day of the
    latest bar up to i that has one. *)
Theorem C64_Camarilla (p : CamP) (kl : list Candle) (rows : list (row CamV)) (s : list Side) :
  rows_of I_Camarilla p kl = Ok rows -> sides_of I_Camarilla p kl = Ok s ->
  exists days, rows_of I_Camarilla p (camDaily p) = Ok days /\
  forall i c v d, nth_error kl i = Some c -> nth_error rows i = Some v -> nth_error s i = Some d ->
    ((forall j x y, (j <= i)%nat -> nth_error rows j = Some x -> In y days -> camSameDay p (rTime y) (rTime x) = false) /\ d = Hold) \/
    (exists j x k y, (j <= i)%nat /\ nth_error rows j = Some x /\ nth_error days k = Some y /\
       camSameDay p (rTime y) (rTime x) = true /\
       (forall k' y', (k' < k)%nat -> nth_error days k' = Some y' -> camSameDay p (rTime y') (rTime x) = false) /\
       (forall j' x' y', (j < j' <= i)%nat -> nth_error rows j' = Some x' -> In y' days -> camSameDay p (rTime y') (rTime x') = false) /\
       signal (cClose c < caEMA (rVal v) /\ cClose c > caH4 (rVal y) /\ cOpen c < caH4 (rVal y))
              (cClose c > caEMA (rVal v) /\ cClose c < caH4 (rVal y) /\ cOpen c > caH4 (rVal y)) d).
Proof. exact (@cam_rule N p kl rows s). Qed.
End Rules.
Print Assumptions C64_Rsi.
Print Assumptions C64_StochRsi.
Print Assumptions C64_Stoch.
Print Assumptions C64_Macd.
Print Assumptions C64_Kdj.
Print Assumptions C64_Cci.
Print Assumptions C64_AiCoinCCI.
Print Assumptions C64_StochasticHeat.
Print Assumptions C64_MFI.
Print Assumptions C64_APO.
Print Assumptions C64_AO.
Print Assumptions C64_Chaikin.
Print Assumptions C64_PPO.
Print Assumptions C64_Projection.
Print Assumptions C64_WilliamsR.
Print Assumptions C64_Boll.
Print Assumptions C64_Donchian.
Print Assumptions C64_Keltner.
Print Assumptions C64_Ichimoku.
Print Assumptions C64_SuperTrend.
Print Assumptions C64_PivotPointSuperTrend.
Print Assumptions C64_UTBot.
Print Assumptions C64_EMAVegas.
Print Assumptions C64_Camarilla.

Example C64_hyp :
  let zz := [50; 52; 55; 53; 49; 45; 40; 42; 48; 55; 61; 66; 62; 60; 53; 44; 38; 41; 50] in
  let up := map (fun c => kd (c - 1) (c + 2) (c - 2) c 1 60) zz in
  let B := Buy in let S := Sell in let H := Hold in
  sides_of I_Rsi 3 (flat zz) = Ok [B; H; H; H; H; H; B; H; H; H; H; H; S; H; H; B; H; H; H] /\
  sides_of I_StochRsi (mkStochRsiP 3 3 3 3) (flat zz) = Ok [B; H; H; H; H; S; H; B; H; H; H; H; S; H; H; H; H; B; H] /\
  sides_of I_Kdj 3 (flat zz) = Ok [B; H; H; H; S; H; H; H; B; H; H; H; S; H; H; H; H; H; B] /\
  sides_of I_APO (mkFS 2 4) (flat zz) = Ok [B; H; H; H; S; H; H; H; B; H; H; H; H; H; S; H; H; H; B] /\
  sides_of I_PPO (mkPPOP 2 4 2) (flat zz) = Ok [B; H; H; S; H; H; H; B; H; H; H; H; S; H; H; H; H; B; H] /\
  sides_of I_Projection (mkProjP 3 3) (flat zz) = Ok [B; H; H; H; B; B; B; B; S; S; S; S; B; B; B; B; B; B; S] /\
  sides_of I_Williams 3 (flat zz) = Ok [B; H; S; H; B; H; H; H; S; H; H; H; H; B; H; H; H; H; S] /\
  sides_of I_Donchian 3 (flat zz) = Ok [B; H; H; S; H; H; H; H; B; H; H; H; S; H; H; H; H; H; H] /\
  sides_of I_Keltner 3 (flat zz) = Ok [B; H; H; H; H; H; H; H; B; H; H; H; H; S; H; H; H; H; B] /\
  sides_of I_SuperTrend (mkSTP 2 1 true) (flat zz) = Ok [B; H; H; H; S; H; H; H; B; H; H; H; H; H; S; H; H; H; B] /\
  sides_of I_PPST (mkPPP 1 2 (fz 1)) (flat zz) = Ok [B; H; H; H; S; H; H; H; H; B; H; H; H; H; H; S; H; H; H] /\
  sides_of I_UTBot (mkUTP 1 2) (flat zz) = Ok [B; H; H; H; S; H; H; H; B; H; H; H; H; H; S; H; H; H; B] /\
  sides_of I_Boll (mkBollP 3 2) (flat zz) = Ok [B; H; H; H; H; H; H; H; B; H; H; H; H; H; H; H; H; H; B] /\
  sides_of I_EMAVegas (mkVegasP 1 2 2 4 4) up = Ok [B; B; B; B; B; B; B; B; B; B; B; B; H; H; H; H; H; H; B] /\
  sides_of I_TraderXO (mkXOP 2 4) up = Ok [H; B; H; H; S; H; H; H; B; H; H; H; H; H; S; H; H; H; B].
Proof. cbv zeta. repeat (split; [vm_compute; reflexivity|]). vm_compute. reflexivity. Qed.
Example C64_Camarilla_hyp : sides_of I_Camarilla (mkCamP 3 [kd 50 52 48 50 1 60] (fun _ _ => true))
   [kd 60 61 59 60 1 60; kd 50 56 49 55 1 120; kd 55 57 50 51 1 180; kd 44 50 43 46 1 240; kd 60 60 50 52 1 300]
   = Ok [Hold; Buy; Hold; Hold; Sell].
Proof. vm_compute. reflexivity. Qed.
