(** * PropInd2: properties C43, C57, C59, C61 and C63: the formulas of the indicators.

    The vocabulary is in SpecInd2.v.  [ArithLaws N okv] holds for float64 with
    [okv := valid] (every bit pattern of a float64 is valid) and for exact
    arithmetic, see FloatLaws.v. *)
From Verif Require Import Base Num Order B64 XReal Rounding FloatLaws Lits Containers Ta TaTools TaElem TaAvg SpecTa Sides Klines
  KlineProofs3 IndBase IndTrend IndChannel IndVolume IndOsc IndTools SpecInd2 IndForms IndForms2 IndFormsSpec PropInd1.
Set Implicit Arguments.

Local Notation closes := (map (fun c => cClose c)).
Local Notation highs := (map (fun c => cHigh c)).
Local Notation lows := (map (fun c => cLow c)).
Local Notation volumes := (map (fun c => cVolume c)).

(** ** C43 *)
Theorem C43_Macd (N : Num) (okv : F -> Prop) (A : ArithLaws N okv) (p : MacdP) (kl : list Candle) :
  Forall okv (closes kl) ->
  exists rows short long, rows_of I_Macd p kl = Ok rows /\
    ema_of (mShort p) (closes kl) short /\ ema_of (mLong p) (closes kl) long /\
    column (fun v => mDIF v) rows = pointwise fsub short long /\
    ema_of (mSignal p) (column (fun v => mDIF v) rows) (column (fun v => mDEA v) rows) /\
    column (fun v => mMacd v) rows =
      pointwise (fun dif dea => (dif -~ dea) *~ ofZ 2) (column (fun v => mDIF v) rows) (column (fun v => mDEA v) rows).
Proof.
  intros Hok. pose proof (okv_cn (fun c => cClose c) kl Hok) as Hc.
  rewrite cmap. rewrite Macd_T.
  eexists _, (tab (length kl) (emaF (mShort p) (fun i => cClose (cn kl i)))), (tab (length kl) (emaF (mLong p) (fun i => cClose (cn kl i)))).
  split; [reflexivity|]. rewrite !column_T. cbn [mDIF mDEA mMacd]. repeat split; try apply ema_of_T.
  - rewrite pointwise_T. apply tab_ext. intros i Hi. unfold difF. apply (al_minus A). eapply emaF_ok; eauto.
  - now rewrite pointwise_T.
Qed.
Print Assumptions C43_Macd.
(** the signal rule of Macd is C64_Macd *)
Corollary C43_float64 (L : MathLib) (p : MacdP) (kl : list (Candle (N := B64 L))) : Forall valid (closes kl) ->
  exists rows short long, rows_of I_Macd p kl = Ok rows /\
    ema_of (mShort p) (closes kl) short /\ ema_of (mLong p) (closes kl) long /\
    column (fun v => mDIF v) rows = pointwise fsub short long /\
    ema_of (mSignal p) (column (fun v => mDIF v) rows) (column (fun v => mDEA v) rows) /\
    column (fun v => mMacd v) rows =
      pointwise (fun dif dea => (dif -~ dea) *~ ofZ 2) (column (fun v => mDIF v) rows) (column (fun v => mDEA v) rows).
Proof. exact (C43_Macd (B64_arith L) p kl). Qed.
Print Assumptions C43_float64.
Example C43_hyp : Forall valid (closes (flat [4; 7; 1])) /\
  rmap (map (fun x => mDIF (rVal x) ==~ fz 0)) (rows_of I_Macd (mkMacdP 1 1 3) (flat [4; 7; 1])) = Ok [true; false; false] /\
  rmap (map (fun x => mMacd (rVal x) ==~ fz 0)) (rows_of I_Macd (mkMacdP 1 1 3) (flat [4; 7; 1])) = Ok [true; true; true] /\
  rmap (map (fun x => mDIF (rVal x) ==~ fq 3 2)) (rows_of I_Macd (mkMacdP 1 1 3) (flat [4; 7; 1])) = Ok [false; true; false].
Proof. split; [repeat constructor|]. split; [|split]; vm_compute; reflexivity. Qed.

(** ** C57 *)
Theorem C57_OBV (N : Num) (kl : list Candle) : exists rows, rows_of I_Obv tt kl = Ok rows /\ length rows = length kl /\
  (forall r, nth_error rows 0 = Some r -> rVal r = ofZ 0) /\
  forall i r r' c c', nth_error rows (S i) = Some r -> nth_error rows i = Some r' ->
    nth_error kl (S i) = Some c -> nth_error kl i = Some c' ->
    (cClose c >~ cClose c' = true -> rVal r = rVal r' +~ cVolume c) /\
    (cClose c >~ cClose c' = false -> cClose c <~ cClose c' = true -> rVal r = rVal r' -~ cVolume c) /\
    (cClose c >~ cClose c' = false -> cClose c <~ cClose c' = false -> cClose c ==~ cClose c' = true -> rVal r = rVal r').
Proof.
  rewrite Obv_T. eexists. split; [reflexivity|]. split; [apply tab_length|]. split.
  - intros r E. apply tab_some in E as [_ ->]. reflexivity.
  - intros i r r' c c' E E' Ec Ec'. apply tab_some in E as [_ ->]. apply tab_some in E' as [_ ->].
    apply cn_some in Ec as <-. apply cn_some in Ec' as <-. cbn [rVal obvF].
    destruct (cClose (cn kl i) <~ cClose (cn kl (S i))); [repeat split; congruence|].
    destruct (cClose (cn kl (S i)) <~ cClose (cn kl i)); [repeat split; congruence|].
    destruct (cClose (cn kl (S i)) ==~ cClose (cn kl i)); repeat split; congruence.
Qed.
Print Assumptions C57_OBV.
(** closes that are numbers: one of the three cases applies *)
Theorem C57_cases (N : Num) (O : OrdLaws N) (kl : list Candle) (rows : list (row F)) : no_nan (closes kl) ->
  rows_of I_Obv tt kl = Ok rows ->
  forall i r r' c c', nth_error rows (S i) = Some r -> nth_error rows i = Some r' ->
    nth_error kl (S i) = Some c -> nth_error kl i = Some c' ->
    (cClose c >~ cClose c' = true /\ rVal r = rVal r' +~ cVolume c) \/
    (cClose c <~ cClose c' = true /\ rVal r = rVal r' -~ cVolume c) \/
    (cClose c ==~ cClose c' = true /\ rVal r = rVal r').
Proof.
  intros Hn E i r r' c c' E1 E2 E3 E4. destruct (@C57_OBV N kl) as (rows' & E' & _ & _ & Hr).
  rewrite E' in E. injection E as ->. destruct (Hr i r r' c c' E1 E2 E3 E4) as (H1 & H2 & H3).
  assert (Nc : forall k x, nth_error kl k = Some x -> nn (cClose x)).
  { intros k x Hx. unfold no_nan in Hn. rewrite Forall_forall in Hn. apply Hn, (in_map (fun c => cClose c)). eapply nth_error_In, Hx. }
  destruct (cClose c' <~ cClose c) eqn:L1; [auto|]. destruct (cClose c <~ cClose c') eqn:L2; [auto|].
  right; right. assert (E : cClose c ==~ cClose c' = true) by (apply (feq_le O); unfold le; eauto). auto.
Qed.
Print Assumptions C57_cases.
Example C57_hyp : no_nan (closes (map (fun q => kd 1 2 1 (fst q) (snd q) 60) [(5, 10); (6, 20); (4, 30); (4, 40)])) /\
  rmap (map (fun x => rVal x ==~ fz (-10))) (rows_of I_Obv tt (map (fun q => kd 1 2 1 (fst q) (snd q) 60) [(5, 10); (6, 20); (4, 30); (4, 40)])) = Ok [false; false; true; true].
Proof. split; [repeat constructor|vm_compute; reflexivity]. Qed.

(** ** C59 *)
Theorem C59_NVI_partial (N : Num) (kl : list Candle) : exists rows, rows_of I_NVI tt kl = Ok rows /\ length rows = length kl /\
  (forall r, nth_error rows 0 = Some r -> rVal r = ofZ 1000) /\
  forall i r r' c c', nth_error rows (S i) = Some r -> nth_error rows i = Some r' ->
    nth_error kl (S i) = Some c -> nth_error kl i = Some c' ->
    (cVolume c >~ cVolume c' = true -> rVal r = rVal r') /\
    (cVolume c >~ cVolume c' = false -> rVal r = rVal r' +~ ((cClose c -~ cClose c') /~ cClose c') *~ rVal r').
Proof.
  rewrite NVI_T. eexists. split; [reflexivity|]. split; [apply tab_length|]. split.
  - intros r E. apply tab_some in E as [_ ->]. reflexivity.
  - intros i r r' c c' E E' Ec Ec'. apply tab_some in E as [_ ->]. apply tab_some in E' as [_ ->].
    apply cn_some in Ec as <-. apply cn_some in Ec' as <-. cbn [rVal nviF].
    destruct (cVolume (cn kl i) <~ cVolume (cn kl (S i))); repeat split; congruence.
Qed.
Print Assumptions C59_NVI_partial.
(** the index also moves on bars with unchanged volume *)
Theorem C59_refuted : exists (kl : list (Candle (N := EX))) rows i r r' c c', rows_of I_NVI tt kl = Ok rows /\
  nth_error rows (S i) = Some r /\ nth_error rows i = Some r' /\ nth_error kl (S i) = Some c /\ nth_error kl i = Some c' /\
  cVolume c <~ cVolume c' = false /\ rVal r ==~ rVal r' = false.
Proof.
  exists (flat [4; 5]). eexists. exists 0%nat. do 4 eexists. split; [reflexivity|]. do 4 (split; [reflexivity|]).
  split; vm_compute; reflexivity.
Qed.
Print Assumptions C59_refuted.

(** ** C61 *)
(** a line of midpoints of the highest high of the last [a] bars and the lowest low of the last [b] bars *)
Definition midpoints {N : Num} (a b : Z) (kl : list Candle) (ys : list F) : Prop :=
  length ys = length kl /\ forall i y, nth_error ys i = Some y ->
    exists h l, max_of h (window (highs kl) i (Z.to_nat a)) /\ min_of l (window (lows kl) i (Z.to_nat b)) /\
      y = (h +~ l) *~ (ofZ 1 /~ ofZ 2).
Lemma mid_line_T (N : Num) (O : OrdLaws N) a b kl : no_nan (highs kl) -> no_nan (lows kl) -> 1 <= a -> 1 <= b ->
  exists g, mid_line a b (tab (length kl) (fun i => cHigh (cn kl i))) (tab (length kl) (fun i => cLow (cn kl i))) = Ok (tab (length kl) g) /\
    midpoints a b kl (tab (length kl) g).
Proof.
  unfold midpoints. rewrite !cmap. intros Hh Hl Ha Hb. destruct (@Max_T N O _ _ _ Ha Hh) as (m & E1 & H1). destruct (@Min_T N O _ _ _ Hb Hl) as (n & E2 & H2).
  exists (fun i => (m i +~ n i) *~ (ofZ 1 /~ ofZ 2)). unfold mid_line. rewrite E1. cbn [bind]. rewrite E2. cbn [bind].
  rewrite Add_T. cbn [bind]. rewrite DivideBy_T. split; [reflexivity|]. split; [apply tab_length|].
  intros i y E. apply tab_some in E as [Hi ->]. exists (m i), (n i). auto.
Qed.
(** Conversion uses 9 bars for its high side whatever the configuration, and the base line is
    fixed to 26 bars; span B follows its configuration.  Span A is the mean of the two lines and
    the lagging line the close [icLag] bars ago (0 before). *)
Theorem C61_lines_partial (N : Num) (O : OrdLaws N) (p : IchiP) (kl : list Candle) :
  no_nan (highs kl) -> no_nan (lows kl) -> 1 <= icConv p -> 1 <= icSpanB p -> 0 <= icLag p ->
  exists rows, rows_of I_Ichimoku p kl = Ok rows /\ length rows = length kl /\
    midpoints 9 (icConv p) kl (column (fun v => iConv v) rows) /\
    midpoints 26 26 kl (column (fun v => iBase v) rows) /\
    midpoints (icSpanB p) (icSpanB p) kl (column (fun v => iSpanB v) rows) /\
    column (fun v => iSpanA v) rows =
      pointwise (fun x y => (x +~ y) *~ (ofZ 1 /~ ofZ 2)) (column (fun v => iConv v) rows) (column (fun v => iBase v) rows) /\
    column (fun v => iLag v) rows = firstn (length kl) (repeat (ofZ 0) (Z.to_nat (icLag p)) ++ closes kl).
Proof.
  intros Hh Hl Hc Hb Hg.
  destruct (@mid_line_T N O 9 (icConv p) kl) as (g1 & E1 & M1); auto; [lia|].
  destruct (@mid_line_T N O 26 26 kl) as (g2 & E2 & M2); auto; [lia|lia|].
  destruct (@mid_line_T N O (icSpanB p) (icSpanB p) kl) as (g3 & E3 & M3); auto.
  set (lag := fun i => if (i <? Z.to_nat (icLag p))%nat then ofZ 0 else cClose (cn kl (i - Z.to_nat (icLag p)))).
  assert (E : rows_of I_Ichimoku p kl = Ok (tab (length kl) (fun i => mkRow (tm kl i)
    (mkIchiV (g1 i) (g2 i) ((g1 i +~ g2 i) *~ (ofZ 1 /~ ofZ 2)) (g3 i) (lag i))))).
  { T_start I_Ichimoku ichi_calc. rewrite E1. cbn [bind]. rewrite E2. cbn [bind]. T_steps. rewrite E3. cbn [bind]. unfold ShiftRight. T_steps.
    T_append (fun i => mkIchiV (g1 i) (g2 i) ((g1 i +~ g2 i) *~ (ofZ 1 /~ ofZ 2)) (g3 i) (lag i)). }
  eexists. split; [exact E|]. rewrite !column_T. cbn [iConv iBase iSpanA iSpanB iLag]. split; [apply tab_length|].
  do 3 (split; [assumption|]). rewrite pointwise_T. split; [reflexivity|].
  apply list_ext. intros i. destruct (Nat.lt_ge_cases i (length kl)) as [Hi|Hi].
  - rewrite tab_nth_error, nth_error_firstn_lt by exact Hi. unfold lag. destruct (Nat.ltb_spec i (Z.to_nat (icLag p))).
    + rewrite nth_error_app1 by (rewrite repeat_length; assumption). now rewrite nth_error_repeat.
    + rewrite nth_error_app2, repeat_length by (rewrite repeat_length; assumption).
      rewrite cmap, tab_nth_error by lia. reflexivity.
  - rewrite !(proj2 (nth_error_None _ _)); [reflexivity| |rewrite tab_length; exact Hi]. rewrite firstn_length. lia.
Qed.
Print Assumptions C61_lines_partial.
Lemma feq_fin h m e : SpecFloat.SFeqb h (SpecFloat.S754_finite false m e) = true -> h = SpecFloat.S754_finite false m e.
Proof.
  unfold SpecFloat.SFeqb. destruct h as [s|s| |s m' e']; cbn; try destruct s; try discriminate.
  destruct (Z.compare_spec e' e) as [->|H|H]; try discriminate. change (Pos.compare_cont Eq m' m) with (Pos.compare m' m).
  destruct (Pos.compare_spec m' m) as [->|H|H]; try discriminate. reflexivity.
Qed.
(** with a conversion period of 2, the high of three bars ago still counts *)
Theorem C61_refuted : exists (p : IchiP) (kl : list (Candle (N := EX))) rows, no_nan (highs kl) /\ no_nan (lows kl) /\
  icConv p = 2 /\ rows_of I_Ichimoku p kl = Ok rows /\ ~ midpoints (icConv p) (icConv p) kl (column (fun v => iConv v) rows).
Proof.
  set (p := mkIchiP 2 52 26). set (kl := flat [9; 3; 3]).
  set (vals := rmap (map (fun r => iConv (rVal r))) (rows_of I_Ichimoku p kl)).
  assert (V : (match vals with Ok l => Nat.eqb (length l) 3 && negb (nth 2 l (fz 0) ==~ fz 3) | Panic => false end) = true) by (vm_compute; reflexivity).
  unfold vals in V. destruct (rows_of I_Ichimoku p kl) as [rows|] eqn:E; [|discriminate V]. cbn [rmap] in V.
  exists p, kl, rows. split; [repeat constructor|]. split; [repeat constructor|]. split; [reflexivity|]. split; [exact E|].
  intros [_ H]. change (map (fun r => iConv (rVal r)) rows) with (column (fun v => iConv v) rows) in V.
  apply andb_true_iff in V as [Ln V]. apply Nat.eqb_eq in Ln. apply negb_true_iff in V.
  specialize (H 2%nat (nth 2 (column (fun v => iConv v) rows) (fz 0))).
  destruct H as (h & l & [[x [Ix Hx]] _] & [[y [Iy Hy]] _] & Eq); [apply nth_error_nth'; lia|].
  assert (W : window (highs kl) 2 (Z.to_nat (icConv p)) = [fz 4; fz 4]) by (vm_compute; reflexivity).
  assert (W' : window (lows kl) 2 (Z.to_nat (icConv p)) = [fz 2; fz 2]) by (vm_compute; reflexivity).
  rewrite W in Ix. rewrite W' in Iy.
  assert (Ex : x = fz 4) by (destruct Ix as [<-|[<-|[]]]; reflexivity). assert (Ey : y = fz 2) by (destruct Iy as [<-|[<-|[]]]; reflexivity). subst x y.
  apply (@feq_fin h 4503599627370496 (-50)) in Hx. apply (@feq_fin l 4503599627370496 (-51)) in Hy. subst h l.
  rewrite Eq in V. vm_compute in V. discriminate V.
Qed.
Print Assumptions C61_refuted.
Example C61_hyp : rmap (map (fun x => iBase (rVal x) ==~ fz 6)) (rows_of I_Ichimoku (mkIchiP 9 52 26) (flat [9; 3; 3])) = Ok [false; true; true].
Proof. vm_compute. reflexivity. Qed.

(** ** C63 *)
Theorem C63_APO (N : Num) (okv : F -> Prop) (A : ArithLaws N okv) (p : FastSlow) (kl : list Candle) : Forall okv (closes kl) ->
  exists rows fast slow, rows_of I_APO p kl = Ok rows /\
    ema_of (fsFast p) (closes kl) fast /\ ema_of (fsSlow p) (closes kl) slow /\
    column (fun v => v) rows = pointwise fsub fast slow.
Proof.
  intros Hok. pose proof (okv_cn (fun c => cClose c) kl Hok) as Hc. rewrite cmap, APO_T.
  eexists _, (tab (length kl) _), (tab (length kl) _).
  split; [reflexivity|]. rewrite !column_T. split; [apply ema_of_T|]. split; [apply ema_of_T|].
  rewrite pointwise_T. apply tab_ext. intros i Hi. unfold apoF. apply (al_minus A). eapply emaF_ok; eauto.
Qed.
Print Assumptions C63_APO.
Theorem C63_AO (N : Num) (okv : F -> Prop) (A : ArithLaws N okv) (kl : list Candle) : Forall okv (highs kl) -> Forall okv (lows kl) ->
  exists rows fast slow, rows_of I_AO tt kl = Ok rows /\
    ema_of 5 (pointwise (fun l h => (l +~ h) /~ ofZ 2) (lows kl) (highs kl)) fast /\
    ema_of 34 (pointwise (fun l h => (l +~ h) /~ ofZ 2) (lows kl) (highs kl)) slow /\
    column (fun v => v) rows = pointwise fsub fast slow.
Proof.
  intros Hok Hol. pose proof (okv_cn (fun c => cHigh c) kl Hok) as Hh. pose proof (okv_cn (fun c => cLow c) kl Hol) as Hl.
  rewrite !cmap, pointwise_T, AO_T.
  rewrite (@tab_ext _ (length kl) (fun i => (cLow (cn kl i) +~ cHigh (cn kl i)) /~ ofZ 2) (medF kl)).
  2:{ intros i Hi. symmetry. apply (al_half A). apply (al_add A); auto. }
  eexists _, (tab (length kl) _), (tab (length kl) _).
  split; [reflexivity|]. rewrite !column_T. split; [apply ema_of_T|]. split; [apply ema_of_T|].
  rewrite pointwise_T. apply tab_ext. intros i Hi. unfold aoF. apply (al_minus A). eapply emaF_ok; eauto.
  intros j Hj. apply (al_mul A); [apply (al_add A); auto|]. apply (al_div A); apply (al_Z A).
Qed.
Print Assumptions C63_AO.
Theorem C63_PPO (N : Num) (okv : F -> Prop) (A : ArithLaws N okv) (p : PPOP) (kl : list Candle) : Forall okv (closes kl) ->
  exists rows fast slow, rows_of I_PPO p kl = Ok rows /\
    ema_of (poFast p) (closes kl) fast /\ ema_of (poSlow p) (closes kl) slow /\
    column (fun v => ppoV v) rows = pointwise (fun f s => ratio (f -~ s) s *~ ofZ 100) fast slow /\
    ema_of (poSignal p) (column (fun v => ppoV v) rows) (column (fun v => ppoSignal v) rows) /\
    column (fun v => ppoHist v) rows = pointwise fsub (column (fun v => ppoV v) rows) (column (fun v => ppoSignal v) rows).
Proof.
  intros Hok. pose proof (okv_cn (fun c => cClose c) kl Hok) as Hc. rewrite cmap, PPO_T.
  eexists _, (tab (length kl) (emaF (poFast p) (fun i => cClose (cn kl i)))), (tab (length kl) (emaF (poSlow p) (fun i => cClose (cn kl i)))).
  split; [reflexivity|]. rewrite !column_T. unfold ppoG. cbn [ppoV ppoSignal ppoHist].
  assert (Hs : forall i, (i < length kl)%nat -> okv (emaF (poSlow p) (fun i => cClose (cn kl i)) i)) by (intros; eapply emaF_ok; eauto).
  assert (Hf : forall i, (i < length kl)%nat -> okv (emaF (poFast p) (fun i => cClose (cn kl i)) i)) by (intros; eapply emaF_ok; eauto).
  split; [apply ema_of_T|]. split; [apply ema_of_T|]. split; [|split; [apply ema_of_T|]]; rewrite pointwise_T; apply tab_ext; intros i Hi.
  - unfold ppoF. rewrite ratio_clean. now rewrite (al_minus A) by auto.
  - apply (al_minus A). eapply emaF_ok; eauto. intros j Hj. unfold ppoF. rewrite ratio_clean.
    apply (al_mul A); [|apply (al_Z A)]. apply (ratio_ok A); auto. apply (al_add A); auto. apply (al_mul A); auto. apply (al_Z A).
Qed.
Print Assumptions C63_PPO.
(** volumes that are NaN count as 0 *)
Theorem C63_VolumeOscillator (N : Num) (okv : F -> Prop) (A : ArithLaws N okv) (p : FastSlow) (kl : list Candle) : Forall okv (volumes kl) ->
  let vs := map (fun v => if isNaN v then ofZ 0 else v) (volumes kl) in
  exists rows short long, rows_of I_VOsc p kl = Ok rows /\
    ema_of (fsFast p) vs short /\ ema_of (fsSlow p) vs long /\
    column (fun v => v) rows = pointwise (fun s l => ratio (s -~ l) l *~ ofZ 100) short long.
Proof.
  intros Hok. cbn zeta. pose proof (okv_cn (fun c => cVolume c) kl Hok) as Hc. rewrite cmap, tabmap, VOsc_T.
  eexists _, (tab (length kl) (emaF (fsFast p) (volF kl))), (tab (length kl) (emaF (fsSlow p) (volF kl))).
  split; [reflexivity|]. rewrite !column_T.
  split; [apply (ema_of_T _ _ (volF kl))|]. split; [apply (ema_of_T _ _ (volF kl))|]. rewrite pointwise_T. apply tab_ext. intros i Hi.
  unfold voscF. rewrite ratio_clean. rewrite (al_minus A); [reflexivity|]. eapply emaF_ok; eauto.
  intros j Hj. unfold volF, Nz. destruct (isNaN _); [apply (al_Z A)|auto].
Qed.
Print Assumptions C63_VolumeOscillator.
(** the accumulation/distribution line adds, per bar, volume * ((close-low) - (high-close)) / (high-low),
    or nothing when that is not a number (no range) *)
Definition money_flow {N : Num} (c : Candle) : F :=
  let x := cVolume c *~ (((cClose c -~ cLow c) -~ (cHigh c -~ cClose c)) /~ (cHigh c -~ cLow c)) in
  if isNaN x then ofZ 0 else x.
Theorem C63_AccumulationDistribution (N : Num) (kl : list Candle) : exists rows, rows_of I_AD tt kl = Ok rows /\
  column (fun v => v) rows = totals_from (ofZ 0) (map money_flow kl).
Proof.
  rewrite AD_T. eexists. split; [reflexivity|]. rewrite column_T. 
  assert (G : forall n (m : nat -> F) (g : nat -> F) s, (forall i, (i < n)%nat -> g i = (match i with O => s | S j => g j end) +~ m i) ->
    tab n g = totals_from s (tab n m)).
  { induction n as [|n IH]; intros m g s E; [reflexivity|].
    assert (T : forall X (f : nat -> X), tab (S n) f = f 0%nat :: tab n (fun i => f (S i))).
    { intros X f. unfold tab. cbn. f_equal. rewrite <- seq_shift, map_map. reflexivity. }
    rewrite !T. cbn [totals_from]. rewrite (E 0%nat) by lia. f_equal. rewrite <- (E 0%nat) by lia.
    apply IH. intros i Hi. rewrite (E (S i)) by lia. destruct i; reflexivity. }
  rewrite (cmap money_flow). apply G. intros i Hi. destruct i; reflexivity.
Qed.
Print Assumptions C63_AccumulationDistribution.
Theorem C63_Chaikin (N : Num) (okv : F -> Prop) (A : ArithLaws N okv) (p : FastSlow) (kl : list Candle) :
  Forall okv (highs kl) -> Forall okv (lows kl) -> Forall okv (closes kl) -> Forall okv (volumes kl) ->
  exists rows fast slow, rows_of I_Chaikin p kl = Ok rows /\
    column (fun v => coAD v) rows = totals_from (ofZ 0) (map money_flow kl) /\
    ema_of (fsFast p) (column (fun v => coAD v) rows) fast /\ ema_of (fsSlow p) (column (fun v => coAD v) rows) slow /\
    column (fun v => coValue v) rows = pointwise fsub fast slow.
Proof.
  intros Hh Hl Hc Hv. destruct (@C63_AccumulationDistribution N kl) as (rows & E & Hr). rewrite AD_T in E. injection E as <-.
  rewrite column_T in Hr. rewrite Chaikin_T.
  eexists _, (tab (length kl) (emaF (fsFast p) (adF kl))), (tab (length kl) (emaF (fsSlow p) (adF kl))).
  split; [reflexivity|]. rewrite !column_T. unfold chaikinF. cbn [coAD coValue]. split; [exact Hr|]. split; [apply ema_of_T|]. split; [apply ema_of_T|].
  rewrite pointwise_T. apply tab_ext. intros i Hi. apply (al_minus A). eapply emaF_ok; eauto.
  intros j Hj. assert (V : forall k, (k < length kl)%nat -> okv (adV kl k)).
  { intros k Hk. unfold adV, ad_val. cbn zeta. destruct (isNaN _); [apply (al_Z A)|].
    pose proof (okv_cn _ kl Hh Hk). pose proof (okv_cn _ kl Hl Hk). pose proof (okv_cn _ kl Hc Hk). pose proof (okv_cn _ kl Hv Hk).
    cbn beta in *. apply (al_mul A); [assumption|]. apply (al_div A); repeat apply (al_sub A); assumption. }
  clear - A V Hj. induction j as [|j IH]; cbn [adF]; apply (al_add A); auto. apply (al_Z A). apply IH; lia.
Qed.
Print Assumptions C63_Chaikin.
Example C63_hyp :
  rmap (map (fun x => rVal x ==~ fq 3 2)) (rows_of I_APO (mkFS 1 3) (flat [4; 7; 1])) = Ok [false; true; false] /\
  rmap (map (fun x => rVal x ==~ fz 0)) (rows_of I_AO tt (flat [4; 7; 1])) = Ok [true; false; false] /\
  rmap (map (fun x => ppoV (rVal x) ==~ fz 20)) (rows_of I_PPO (mkPPOP 1 3 1) (flat [4; 8; 1])) = Ok [false; false; false] /\
  rmap (map (fun x => rVal x ==~ fz 0)) (rows_of I_VOsc (mkFS 1 3) (flat [4; 8; 1])) = Ok [true; true; true] /\
  rmap (map (fun x => coAD (rVal x) ==~ fz 10)) (rows_of I_Chaikin (mkFS 1 3) [kd 1 3 1 3 10 60; kd 1 3 1 1 20 120]) = Ok [true; false].
Proof. repeat split; vm_compute; reflexivity. Qed.
