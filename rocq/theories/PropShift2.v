(** * PropShift2: property C97, continued: oscillators do not see the level, nor do the signals. *)
From Coq Require Import Reals Lra ZArith Lia Bool List PeanoNat.
From Verif Require Import Base Num XReal Order OrderMore FloatLaws FloatOrder FloatBounds SpecNum B64 Lits Containers Ta TaTools TaAvg TaRange TaStat SpecTa Sides Klines RSum XrMore
  IndBase IndTrend IndChannel IndOsc IndVolume IndTools IndForms IndForms2 IndForms3 IndForms4 IndForms5 IndFormsSpec IndBounds IndBounds2 IndExact TaDev TaReg SpecInd SpecInd2 SpecBar SpecMemory SpecShift
  PropInd1 PropInd2 PropInd5 PropInd6 PropInd7 PropInd8 PropInd9 PropInd11 PropInd12 PropMemory ShiftTools PropShift.
Import ListNotations.
Set Implicit Arguments.
Open Scope Z_scope.
Local Notation C kl := (fun i => cClose (cn kl i)).
Local Notation H kl := (fun i => cHigh (cn kl i)).
Local Notation L kl := (fun i => cLow (cn kl i)).
Local Notation V kl := (fun i => cVolume (cn kl i)).
Local Notation rows kl g := (Ok (tab (length kl) (fun i => mkRow (tm kl i) (g i)))).
Local Notation kline := (list (Candle (N := XR))).

(** ** Differences of averages *)
Lemma ema_dif c kl p q : 0 <= p -> 0 <= q -> real_candles kl -> forall i, (i < length kl)%nat ->
  emaF p (C (map (lifted c) kl)) i +~ emaF q (C (map (lifted c) kl)) i *~ ofZ (-1) = emaF p (C kl) i +~ emaF q (C kl) i *~ ofZ (-1).
Proof. intros Hp Hq Hr i Hi. apply dif_same with (w := c); apply (@moved_ema _ c (length kl)); auto; now apply lift_close. Qed.
Theorem C97_Macd p : 0 <= mShort p -> 0 <= mLong p -> ignores_level I_Macd p (fun v => v).
Proof.
  intros H1 H2. eapply ignores_F; [intros kl; apply Macd_T|]. intros c kl i Hr Hi. cbn beta.
  assert (D : forall j, (j < length kl)%nat -> difF p (map (lifted c) kl) j = difF p kl j) by (intros j Hj; unfold difF; now apply ema_dif).
  now rewrite (emaF_same (mSignal p) D Hi), D.
Qed.
Theorem C97_APO p : 0 <= fsFast p -> 0 <= fsSlow p -> ignores_level I_APO p (fun v => v).
Proof. intros H1 H2. eapply ignores_F; [intros kl; apply APO_T|]. intros c kl i Hr Hi. unfold apoF. now apply ema_dif. Qed.
Theorem C97_AO : ignores_level I_AO tt (fun v => v).
Proof.
  eapply ignores_F; [intros kl; apply AO_T|]. intros c kl i Hr Hi. unfold aoF.
  assert (M : moved c (length kl) (medF kl) (medF (map (lifted c) kl))).
  { intros j Hj. unfold medF. rewrite half_is. eapply mrel_w; [apply mrel_mulc, mrel_add; [apply (lift_low c Hr Hj)|apply (lift_high c Hr Hj)]|lra]. }
  apply dif_same with (w := c); (eapply moved_ema; [|exact M|exact Hi]); lia.
Qed.

(** ** Volume indicators that compare prices *)
Lemma obv_same c kl : real_candles kl -> forall i, (i < length kl)%nat -> obvF (C (map (lifted c) kl)) (V (map (lifted c) kl)) i = obvF (C kl) (V kl) i.
Proof.
  intros Hr i. induction i as [|i IH]; intros Hi; cbn [obvF]; [reflexivity|]. rewrite IH by lia.
  pose proof (lift_close c Hr (j := S i) Hi) as M1. pose proof (lift_close c Hr (j := i) ltac:(lia)) as M2.
  rewrite (lt_same M2 M1), (lt_same M1 M2), (eq_same M1 M2), (lift_volume c kl Hi). reflexivity.
Qed.
Theorem C97_Obv : ignores_level I_Obv tt (fun v => v).
Proof. eapply ignores_F; [intros kl; apply Obv_T|]. intros c kl i Hr Hi. now apply obv_same. Qed.
Lemma ad_same c kl : real_candles kl -> forall i, (i < length kl)%nat -> adF (map (lifted c) kl) i = adF kl i.
Proof.
  intros Hr. assert (A : forall i, (i < length kl)%nat -> adV (map (lifted c) kl) i = adV kl i).
  { intros i Hi. unfold adV, ad_val. pose proof (lift_close c Hr Hi) as MC. pose proof (lift_high c Hr Hi) as MH. pose proof (lift_low c Hr Hi) as ML.
    rewrite (sub_same MC ML), (sub_same MH MC), (sub_same MH ML), (lift_volume c kl Hi). reflexivity. }
  induction i as [|i IH]; intros Hi; cbn [adF]; [now rewrite A|]. now rewrite IH, A by lia.
Qed.
Theorem C97_AD : ignores_level I_AD tt (fun v => v).
Proof. eapply ignores_F; [intros kl; apply AD_T|]. intros c kl i Hr Hi. now apply ad_same. Qed.
Theorem C97_Chaikin p : ignores_level I_Chaikin p (fun v => v).
Proof.
  eapply ignores_F; [intros kl; apply Chaikin_T|]. intros c kl i Hr Hi. unfold chaikinF. pose proof (ad_same c Hr) as A.
  now rewrite (emaF_same (fsFast p) A Hi), (emaF_same (fsSlow p) A Hi), A.
Qed.
Theorem C97_CMF p : 0 <= p -> ignores_level I_CMF p (fun v => v).
Proof.
  intros Hp. eapply ignores_F; [intros kl; now apply CMF_T|]. intros c kl i Hr Hi. unfold cmfF.
  assert (A : forall j, (j < length kl)%nat -> cmfM (map (lifted c) kl) j = cmfM kl j).
  { intros j Hj. unfold cmfM. pose proof (lift_close c Hr Hj) as MC. pose proof (lift_high c Hr Hj) as MH. pose proof (lift_low c Hr Hj) as ML.
    rewrite (dif_same MC ML), (dif_same MH MC), (dif_same MH ML), (lift_volume c kl Hj). reflexivity. }
  rewrite (@runF_same (Z.to_nat p) (length kl) _ _ A (S i)) by lia. rewrite (@runF_same (Z.to_nat p) (length kl) (V kl) (V (map (lifted c) kl))) with (j := S i) by (intros; (now apply lift_volume) || lia). reflexivity.
Qed.
(** a volume-weighted average moves with the chart once there is volume to weigh with *)
Theorem C97_Vwma (p : nat) (c : R) (kl : kline) : (1 <= p)%nat -> real_candles kl -> (forall k, In k kl -> (fzero <~ cVolume k) = true) ->
  exists r r', rows_of I_Vwma (Z.of_nat p) kl = Ok r /\ rows_of I_Vwma (Z.of_nat p) (map (lifted c) kl) = Ok r' /\
    length r = length kl /\ column (fun v => v) r' = map (fun x => x +~ (Fin c : @F XR)) (column (fun v => v) r).
Proof.
  intros Hp Hr Hv. eexists _, _. split; [apply Vwma_T; lia|]. split; [apply Vwma_T; lia|]. split; [apply tab_length|].
  unfold column. rewrite map_length, !tabmap, Nat2Z.id. cbn [rVal]. apply tab_ext. intros i Hi. unfold vwmaF.
  set (cs := fun j => val (C kl j)). set (vs := fun j => val (V kl j)).
  assert (EC : forall j, (j < length kl)%nat -> C kl j = Fin (cs j)) by (intros j Hj; unfold cs; destruct (lift_close c Hr Hj) as (r & E & _); cbn in E |- *; now rewrite E).
  assert (EV : forall j, (j < length kl)%nat -> V kl j = Fin (vs j) /\ (0 < vs j)%R).
  { intros j Hj. unfold vs. destruct (real_cn Hr Hj) as (b & _ & _ & _ & _ & E). rewrite E. split; [reflexivity|]. cbn [val].
    specialize (Hv (cn kl j) ltac:(unfold cn; now apply nth_In)). rewrite E in Hv. cbn in Hv. now destruct (Rltb_spec 0 (bV b)). }
  rewrite (@runF_exact p (fun j => C kl j *~ V kl j) (fun j => cs j * vs j)%R (length kl) i Hi) by (intros j Hj; cbn beta; rewrite (EC j Hj), (proj1 (EV j Hj)); reflexivity).
  rewrite (@runF_exact p (V kl) vs (length kl) i Hi) by (intros j Hj; now apply EV).
  rewrite (@runF_exact p (fun j => C (map (lifted c) kl) j *~ V (map (lifted c) kl) j) (fun j => (cs j + c) * vs j)%R (length kl) i Hi).
  2:{ intros j Hj. cbn beta. rewrite (lift_volume c kl Hj), (proj1 (EV j Hj)). destruct (lift_close c Hr Hj) as (r & E & E'). cbn beta in E, E'. rewrite E'. pose proof (EC j Hj) as Q. cbn beta in Q. rewrite E in Q. injection Q as ->. reflexivity. }
  rewrite (@runF_exact p (V (map (lifted c) kl)) vs (length kl) i Hi) by (intros j Hj; rewrite (lift_volume c kl Hj); now apply EV).
  rewrite !PropInd8.div_clean_exact.
  set (w := window (seq 0 (length kl)) i p).
  assert (W : forall h : nat -> R, window (tab (length kl) h) i p = map h w) by (intros h; unfold w; rewrite <- window_map; reflexivity).
  rewrite !W. assert (Wn : w <> []) by (apply win_ne; [exact Hp|now rewrite seq_length]).
  assert (Wi : forall j, In j w -> (j < length kl)%nat) by (intros j Hj; apply window_In in Hj; apply in_seq in Hj; lia).
  assert (S1 : Rsum (map (fun j => (cs j + c) * vs j)%R w) = (Rsum (map (fun j => cs j * vs j) w) + c * Rsum (map vs w))%R).
  { generalize w. clear. intros w. induction w as [|j w IH]; [unfold Rsum; cbn; lra|]. change (Rsum (map (fun j => (cs j + c) * vs j) (j :: w)))%R with ((cs j + c) * vs j + Rsum (map (fun j => (cs j + c) * vs j) w))%R.
    change (Rsum (map (fun j => cs j * vs j) (j :: w)))%R with (cs j * vs j + Rsum (map (fun j => cs j * vs j) w))%R. change (Rsum (map vs (j :: w))) with (vs j + Rsum (map vs w))%R. rewrite IH. lra. }
  assert (S2 : (0 < Rsum (map vs w))%R).
  { revert Wn Wi. generalize w. clear -EV. intros w. induction w as [|j w IH]; intros Wn Wi; [congruence|]. pose proof (proj2 (EV j (Wi j (or_introl eq_refl)))). destruct w as [|k w]; [unfold Rsum; cbn; lra|].
    assert (0 < Rsum (map vs (k :: w)))%R by (apply IH; [discriminate|intros; apply Wi; now right]). change (Rsum (map vs (j :: k :: w))) with (vs j + Rsum (map vs (k :: w)))%R. lra. }
  rewrite S1, !SpecBar.ratio_nz by lra. cbn [fadd XR xadd]. f_equal. field. now apply Rgt_not_eq.
Qed.

(** ** Oscillators built on differences of prices *)
Lemma rsi_same p c kl : real_candles kl -> forall i, (i < length kl)%nat -> rsiF p (C (map (lifted c) kl)) i = rsiF p (C kl) i.
Proof.
  intros Hr.
  assert (D : forall j, (S j < length kl)%nat -> C (map (lifted c) kl) (S j) -~ C (map (lifted c) kl) j = C kl (S j) -~ C kl j) by (intros j Hj; apply sub_same with (w := c); apply (lift_close c Hr); lia).
  assert (A : forall j, (j < length kl)%nat -> rsiA (C (map (lifted c) kl)) j = rsiA (C kl) j).
  { induction j as [|j IH]; intros Hj; cbn [rsiA]; [reflexivity|]. rewrite IH, D by lia. reflexivity. }
  assert (W : forall d, (p + d < length kl)%nat -> rsiW p (C (map (lifted c) kl)) d = rsiW p (C kl) d).
  { induction d as [|d IH]; intros Hd; cbn [rsiW]; [rewrite A by lia; reflexivity|]. rewrite IH by lia. replace (p + S d)%nat with (S (p + d)) by lia. rewrite D by lia. reflexivity. }
  intros i Hi. unfold rsiF. destruct (Nat.ltb_spec i p); [reflexivity|]. rewrite W by lia. reflexivity.
Qed.
Theorem C97_Rsi (p : nat) (c : R) (kl : kline) : (2 <= p)%nat -> (p < length kl)%nat -> real_candles kl ->
  exists r, rows_of I_Rsi (Z.of_nat p) kl = Ok r /\ rows_of I_Rsi (Z.of_nat p) (map (lifted c) kl) = Ok r.
Proof.
  intros Hp Hl Hr. eexists. split; [now apply Rsi_T|]. rewrite Rsi_T by (auto; now rewrite map_length). rewrite map_length. f_equal. apply tab_ext. intros i Hi. rewrite (tm_lift c kl Hi). f_equal. now apply rsi_same.
Qed.
Lemma low_shift c n f g : moved c n f g -> forall s k, (s + k < n)%nat -> mrel c (lowF f s k) (lowF g s k).
Proof. intros M s. induction k as [|k IH]; intros Hk; cbn [lowF]; [apply M; lia|]. specialize (IH ltac:(lia)). pose proof (M (s + S k)%nat Hk) as M1. rewrite (lt_same M1 IH). destruct (_ <~ _); auto. Qed.
Lemma high_shift c n f g : moved c n f g -> forall s k, (s + k < n)%nat -> mrel c (highF f s k) (highF g s k).
Proof. intros M s. induction k as [|k IH]; intros Hk; cbn [highF]; [apply M; lia|]. specialize (IH ltac:(lia)). pose proof (M (s + S k)%nat Hk) as M1. rewrite (lt_same IH M1). destruct (_ <~ _); auto. Qed.
Theorem C97_Kdj (p : nat) : (2 <= p)%nat -> ignores_level I_Kdj (Z.of_nat p) (fun v => v).
Proof.
  intros Hp. eapply ignores_F; [intros kl; now apply Kdj_T|]. intros c kl i Hr Hi. unfold kdjG.
  assert (R : forall j, (j < length kl)%nat -> (p - 1 <= j)%nat -> rsvF p (L (map (lifted c) kl)) (H (map (lifted c) kl)) (C (map (lifted c) kl)) j = rsvF p (L kl) (H kl) (C kl) j).
  { intros j Hj Hp'. unfold rsvF. cbn zeta. pose proof (low_shift (lift_low c Hr) (j - (p - 1)) (p - 1) ltac:(lia)) as ML. pose proof (high_shift (lift_high c Hr) (j - (p - 1)) (p - 1) ltac:(lia)) as MH.
    rewrite (sub_same MH ML), (sub_same (lift_close c Hr Hj) ML). reflexivity. }
  assert (K : forall j, (j < length kl)%nat -> kdjF p (L (map (lifted c) kl)) (H (map (lifted c) kl)) (C (map (lifted c) kl)) j = kdjF p (L kl) (H kl) (C kl) j).
  { induction j as [|j IH]; intros Hj; cbn [kdjF]; [reflexivity|]. destruct (Nat.ltb_spec (S j) (p - 1)); [reflexivity|]. rewrite IH, R by lia. reflexivity. }
  now rewrite K.
Qed.
Theorem C97_Williams p : 1 <= p -> ignores_level I_Williams p (fun v => v).
Proof.
  intros Hp. apply ignores_T with (P := fun (kl : kline) g => exists u l, tops (fun k => cHigh k) p kl u /\ bottoms (fun k => cLow k) p kl l /\ g = wilF (C kl) u l).
  { intros kl Hr. destruct (@Williams_T XR XR_ord p kl Hp (real_no_nan _ bar_high Hr) (real_no_nan _ bar_low Hr)) as (u & l & Hu & Hl & E). eexists. split; [exact E|]. exists u, l. auto. }
  intros c kl g g' Hr (u & l & U & D & ->) (u' & l' & U' & D' & ->) i Hi. unfold wilF.
  pose proof (top_shift c bar_high (fun k => eq_refl) Hr U U' Hi) as MU. pose proof (bottom_shift c bar_low (fun k => eq_refl) Hr D D' Hi) as ML.
  now rewrite (sub_same MU (lift_close c Hr Hi)), (sub_same MU ML).
Qed.
Theorem C97_Stochastic p : 1 <= p -> ignores_level I_Stoch p (fun v => v).
Proof.
  intros Hp. apply ignores_T with (P := fun (kl : kline) g => exists u l, tops (fun k => cHigh k) p kl u /\ bottoms (fun k => cLow k) p kl l /\ g = fun i => mkKD (stoK (C kl) u l i) (smaF 3 (stoK (C kl) u l) i)).
  { intros kl Hr. destruct (@Stoch_T XR XR_ord p kl Hp (real_no_nan _ bar_high Hr) (real_no_nan _ bar_low Hr)) as (u & l & Hu & Hl & E). eexists. split; [exact E|]. exists u, l. auto. }
  intros c kl g g' Hr (u & l & U & D & ->) (u' & l' & U' & D' & ->) i Hi.
  assert (K : forall j, (j < length kl)%nat -> stoK (C (map (lifted c) kl)) u' l' j = stoK (C kl) u l j).
  { intros j Hj. unfold stoK. pose proof (top_shift c bar_high (fun k => eq_refl) Hr U U' Hj) as MU. pose proof (bottom_shift c bar_low (fun k => eq_refl) Hr D D' Hj) as ML.
    now rewrite (dif_same (lift_close c Hr Hj) ML), (dif_same MU ML). }
  now rewrite K, (smaF_same 3 K Hi).
Qed.
Lemma tr3_same c kl : real_candles kl -> forall j, (j < length kl)%nat -> tr3F (map (lifted c) kl) j = tr3F kl j.
Proof.
  intros Hr [|j] Hj; [reflexivity|]. unfold tr3F. assert (Hj' : (j < length kl)%nat) by lia.
  rewrite (sub_same (lift_high c Hr Hj) (lift_low c Hr Hj)), (sub_same (lift_high c Hr Hj) (lift_close c Hr Hj')), (sub_same (lift_low c Hr Hj) (lift_close c Hr Hj')). reflexivity.
Qed.
Theorem C97_Vortex p : 1 <= p -> ignores_level I_Vortex p (fun v => v).
Proof.
  intros Hp. eapply ignores_F; [intros kl; now apply Vortex_T|]. intros c kl i Hr Hi. destruct i as [|i]; [reflexivity|]. unfold vortexF.
  assert (P : forall j, (j < length kl)%nat -> vPF (map (lifted c) kl) j = vPF kl j).
  { intros [|j] Hj; [reflexivity|]. unfold vPF. assert (Hj' : (j < length kl)%nat) by lia. now rewrite (sub_same (lift_high c Hr Hj) (lift_low c Hr Hj')). }
  assert (M : forall j, (j < length kl)%nat -> vMF (map (lifted c) kl) j = vMF kl j).
  { intros [|j] Hj; [reflexivity|]. unfold vMF. assert (Hj' : (j < length kl)%nat) by lia. now rewrite (sub_same (lift_low c Hr Hj) (lift_high c Hr Hj')). }
  rewrite (ringS_same (Z.to_nat p) P Hi), (ringS_same (Z.to_nat p) M Hi), (ringS_same (Z.to_nat p) (tr3_same c Hr) Hi). reflexivity.
Qed.
Theorem C97_ADX p : 1 <= axPeriod p -> 0 <= axLen p -> ignores_level I_ADX p (fun v => v).
Proof.
  intros H1 H2. eapply ignores_F; [intros kl; now apply ADX_T|]. intros c kl i Hr Hi. unfold adxF.
  assert (M : forall j, (j < length kl)%nat -> dmF (map (lifted c) kl) j = dmF kl j).
  { intros [|j] Hj; [reflexivity|]. unfold dmF, calculateDM. assert (Hj' : (j < length kl)%nat) by lia. cbn zeta.
    now rewrite (sub_same (lift_high c Hr Hj) (lift_high c Hr Hj')), (sub_same (lift_low c Hr Hj') (lift_low c Hr Hj)). }
  assert (D : forall j, (j < length kl)%nat -> diF (axPeriod p) (axLen p) (map (lifted c) kl) j = diF (axPeriod p) (axLen p) kl j).
  { intros j Hj. unfold diF. destruct (_ <? _)%nat; [reflexivity|]. f_equal; apply smoothF_same with (n := length kl); auto; intros k Hk; rewrite ?M by exact Hk; auto. now apply tr3_same. }
  rewrite D by exact Hi. f_equal. apply smaF_same with (n := length kl); auto. intros j Hj. now rewrite D.
Qed.
Theorem C97_Cci (p : nat) : (1 <= p)%nat -> ignores_level I_Cci (mkCciP (Z.of_nat p) (Z.of_nat p)) (fun v => v) /\ ignores_level I_AiCoinCCI (Z.of_nat p) (fun v => v).
Proof.
  intros Hp.
  assert (TP : forall k b, is_bar k b -> exists r, typical_price k = Fin r) by (intros k b Hb; unfold typical_price; change (isR ((cHigh k +~ cLow k +~ cClose k) /~ ofZ 3)); isR_tac).
  assert (TL : forall c k b, is_bar k b -> typical_price (lifted c k) = typical_price k +~ (Fin c : @F XR)).
  { intros c k b (_ & Eh & El & Ec & _). unfold typical_price, lifted. cbn [cHigh cLow cClose]. rewrite Eh, El, Ec. assert (D3 : forall a, (Fin a : @F XR) /~ ofZ 3 = (Fin (a / 3) : @F XR)) by (intros a; cbn; destruct (Reqb_spec 3 0); [lra|reflexivity]).
    change ((Fin (bH b + c + (bL b + c) + (bC b + c)) : @F XR) /~ ofZ 3 = (Fin (bH b + bL b + bC b) : @F XR) /~ ofZ 3 +~ (Fin c : @F XR)). rewrite !D3. cbn. f_equal. field. }
  assert (TN : forall c kl, real_candles kl -> nums typical_price (map (lifted c) kl) = map (fun x => x + c)%R (nums typical_price kl)).
  { intros c kl (bs & HB). unfold nums. rewrite !map_map. induction HB as [|k b kl bs Hk HB IH]; [reflexivity|]. cbn [map]. rewrite IH. f_equal. rewrite (TL c k b Hk). destruct (TP _ _ Hk) as (r & ->). reflexivity. }
  assert (IX : forall c flat (xs : list R) n i, length xs = n -> (i < n)%nat ->
    (if (S i <? p)%nat then Fin 0 else let w := window (map (fun x => x + c)%R xs) i p in if Reqb (mad w) 0 then flat else Fin ((nth i (map (fun x => x + c)%R xs) 0 - mean w) / (15 / 1000 * mad w))%R) =
    (if (S i <? p)%nat then Fin 0 else let w := window xs i p in if Reqb (mad w) 0 then flat else Fin ((nth i xs 0 - mean w) / (15 / 1000 * mad w))%R)).
  { intros c flat xs n i <- Hi. destruct (_ <? _)%nat; [reflexivity|]. cbn zeta. rewrite window_map, mad_shift, mean_shift by (now apply win_ne). destruct (Reqb _ _); [reflexivity|].
    rewrite nth_indep with (d' := (0 + c)%R) by (now rewrite map_length). rewrite (map_nth (fun x => x + c)%R). do 2 f_equal. lra. }
  split; intros c kl Hr; pose proof (nums_fins typical_price Hr TP) as T0; pose proof (nums_fins (fun k => cClose k) Hr bar_close) as C0;
    pose proof (nums_fins typical_price (lift_real c Hr) TP) as T1; pose proof (nums_fins (fun k => cClose k) (lift_real c Hr) bar_close) as C1;
    rewrite (TN c kl Hr) in T1; rewrite (nums_lift c (fun k => cClose k) bar_close (fun k => eq_refl) Hr) in C1;
    destruct (@C79_exact p kl _ _ Hp T0 C0) as [E1 E2]; destruct (@C79_exact p (map (lifted c) kl) _ _ Hp T1 C1) as [F1 F2].
  - destruct (rows_of I_Cci _ kl) as [r|]; [|discriminate]. destruct (rows_of I_Cci _ (map (lifted c) kl)) as [r'|]; [|discriminate]. cbn [rmap] in E1, F1. injection E1 as E1. injection F1 as F1.
    exists r, r'. split; [reflexivity|]. split; [reflexivity|]. split; [apply (f_equal (@length _)) in E1; unfold column in E1; now rewrite map_length, tab_length in E1|].
    refine (eq_trans F1 (eq_trans _ (eq_sym E1))). rewrite map_length. apply tab_ext. intros i Hi. apply (IX c NaN _ (length kl)); [unfold nums; apply map_length|exact Hi].
  - destruct (rows_of I_AiCoinCCI _ kl) as [r|]; [|discriminate]. destruct (rows_of I_AiCoinCCI _ (map (lifted c) kl)) as [r'|]; [|discriminate]. cbn [rmap] in E2, F2. injection E2 as E2. injection F2 as F2.
    exists r, r'. split; [reflexivity|]. split; [reflexivity|]. split; [apply (f_equal (@length _)) in E2; unfold column in E2; now rewrite map_length, tab_length in E2|].
    refine (eq_trans F2 (eq_trans _ (eq_sym E2))). rewrite map_length. apply tab_ext. intros i Hi. apply (IX c (Fin 0) _ (length kl)); [unfold nums; apply map_length|exact Hi].
Qed.
Print Assumptions C97_Macd.
Print Assumptions C97_APO.
Print Assumptions C97_AO.
Print Assumptions C97_Obv.
Print Assumptions C97_AD.
Print Assumptions C97_Chaikin.
Print Assumptions C97_CMF.
Print Assumptions C97_Vwma.
Print Assumptions C97_Rsi.
Print Assumptions C97_Kdj.
Print Assumptions C97_Williams.
Print Assumptions C97_Stochastic.
Print Assumptions C97_Vortex.
Print Assumptions C97_ADX.
Print Assumptions C97_Cci.
