(** * PropShift3: property C97, continued: signals, and the first bar of three indicators. *)
From Coq Require Import Reals Lra ZArith Lia Bool List PeanoNat.
From Verif Require Import Base Num XReal Order OrderMore FloatLaws FloatOrder FloatBounds SpecNum B64 Lits Containers Ta TaTools TaAvg TaRange TaStat SpecTa Sides Klines RSum XrMore
  IndBase IndTrend IndChannel IndOsc IndVolume IndTools IndForms IndForms2 IndForms3 IndForms4 IndForms5 IndFormsSpec IndMachines IndBounds IndBounds2 IndExact TaDev TaReg SpecInd SpecInd2 SpecBar SpecMemory SpecShift
  CrashSides PropInd1 PropInd2 PropInd5 PropInd6 PropInd7 PropInd8 PropInd9 PropInd11 PropInd12 PropMemory PropMemory2 ShiftTools PropShift PropShift2.
Import ListNotations.
Set Implicit Arguments.
Open Scope Z_scope.
Local Notation C kl := (fun i => cClose (cn kl i)).
Local Notation rows kl g := (Ok (tab (length kl) (fun i => mkRow (tm kl i) (g i)))).
Local Notation kline := (list (Candle (N := XR))).

(** ** Least-squares candles and the Ichimoku lines move with the chart *)
Lemma sse_shift b m c l : sse (b + c) m (points (map (fun x => x + c)%R l)) = sse b m (points l).
Proof.
  unfold sse, points. rewrite map_length. generalize (map INR (seq 0 (length l))) as ts. intros ts. f_equal. revert l. induction ts as [|t ts IH]; intros [|x l]; cbn; try reflexivity. rewrite IH. f_equal. lra.
Qed.
Lemma ls_shift b m c l : least_squares b m (points l) -> least_squares (b + c) m (points (map (fun x => x + c)%R l)).
Proof.
  intros [H1 H2]. split.
  - intros b' m'. rewrite sse_shift. replace b' with ((b' - c) + c)%R by lra. rewrite sse_shift. apply H1.
  - intros b' m'. rewrite sse_shift. replace b' with ((b' - c) + c)%R at 1 by lra. rewrite sse_shift. intros Hs. destruct (H2 _ _ Hs) as [Hb Hm]. split; [lra|exact Hm].
Qed.
Lemma shift_rows A (f : A -> @F XR) (r r' : list (row A)) k c n : length r = n -> length r' = n ->
  (forall i x x', (k <= i)%nat -> nth_error r i = Some x -> nth_error r' i = Some x' -> mrel c (f (rVal x)) (f (rVal x'))) ->
  skipn k (column f r') = map (fun x => x +~ (Fin c : @F XR)) (skipn k (column f r)).
Proof.
  intros Lr Lr' Hx. apply list_ext. intros i. rewrite nth_error_map, !nth_error_skipn. unfold column. rewrite !nth_error_map.
  destruct (Nat.lt_ge_cases (k + i) n) as [Hi|Hi]; [|now rewrite !(proj2 (nth_error_None _ _)) by lia].
  destruct (nth_error r (k + i)) as [x|] eqn:Ex; [|apply nth_error_None in Ex; lia]. destruct (nth_error r' (k + i)) as [x'|] eqn:Ex'; [|apply nth_error_None in Ex'; lia]. cbn [option_map]. f_equal.
  destruct (Hx (k + i)%nat x x' ltac:(lia) Ex Ex') as (y & -> & ->). reflexivity.
Qed.
Theorem C97_LinearRegCandles (p : nat) s : (2 <= p)%nat ->
  follows_level I_LRC (mkLrcP s (Z.of_nat p) false) (fun v => lcOpen v) p /\ follows_level I_LRC (mkLrcP s (Z.of_nat p) false) (fun v => lcHigh v) p /\
  follows_level I_LRC (mkLrcP s (Z.of_nat p) false) (fun v => lcLow v) p /\ follows_level I_LRC (mkLrcP s (Z.of_nat p) false) (fun v => lcClose v) p.
Proof.
  intros H2.
  assert (G : forall (f : LrcV (N := XR) -> @F XR) (q : Candle (N := XR) -> @F XR), (forall k b, is_bar k b -> exists r, q k = Fin r) -> (forall c k, q (lifted c k) = q k +~ (Fin c : @F XR)) ->
    (forall kl, real_candles kl -> (p <= length kl)%nat -> exists r : list (row (LrcV (N := XR))), rows_of I_LRC (mkLrcP s (Z.of_nat p) false) kl = Ok r /\ length r = length kl /\
       forall i x, nth_error r i = Some x -> (p <= S i)%nat -> exists b m, least_squares b m (points (window (nums q kl) i p)) /\ f (rVal x) = Fin (b + m * (INR p - 1))) ->
    follows_level I_LRC (mkLrcP s (Z.of_nat p) false) f p).
  { intros f q Hq Hs HI c kl Hr Hk. destruct (HI kl Hr Hk) as (r & E & Lr & Q). destruct (HI (map (lifted c) kl) (lift_real c Hr)) as (r' & E' & Lr' & Q'); [now rewrite map_length|].
    exists r, r'. split; [exact E|]. split; [exact E'|]. split; [exact Lr|]. rewrite map_length in Lr'.
    refine (@shift_rows _ f r r' (p - 1) c (length kl) Lr Lr' _). intros i x x' Hi Ex Ex'.
    destruct (Q _ _ Ex ltac:(lia)) as (b & m & LS & ->), (Q' _ _ Ex' ltac:(lia)) as (b' & m' & LS' & ->).
    rewrite (nums_lift c q Hq (Hs c) Hr), window_map in LS'. destruct (proj2 LS' (b + c)%R m (proj1 (@ls_shift _ _ c _ LS) b' m')) as [<- <-]. eexists. split; [reflexivity|]. f_equal. lra. }
  assert (K : forall kl, real_candles kl -> (p <= length kl)%nat -> _) by (intros kl Hr Hk; exact (@C81_exact p s kl (nums (fun c => cOpen c) kl) (nums (fun c => cHigh c) kl) (nums (fun c => cLow c) kl) (nums (fun c => cClose c) kl) H2 Hk
     (nums_fins _ Hr (fun c b H => ex_intro _ _ (proj1 H))) (nums_fins _ Hr bar_high) (nums_fins _ Hr bar_low) (nums_fins _ Hr bar_close))).
  repeat apply conj; [apply G with (q := fun k => cOpen k)|apply G with (q := fun k => cHigh k)|apply G with (q := fun k => cLow k)|apply G with (q := fun k => cClose k)];
  try apply bar_high; try apply bar_low; try apply bar_close; try (intros k b Hb; exact (ex_intro _ _ (proj1 Hb))); try reflexivity;
  (intros kl Hr Hk; destruct (K kl Hr Hk) as (r & E & Lr & Q); exists r; split; [exact E|]; split; [exact Lr|]; intros i x Hx Hi; specialize (Q i x Hx); cbn zeta in Q; destruct (Nat.ltb_spec (S i) p); [lia|]; tauto).
Qed.

(** ** Signals *)
Lemma analyse_vals A n from (d d' : list (row A)) rule : map (@rVal A) d' = map (@rVal A) d -> analyse n from d' rule = analyse n from d rule.
Proof.
  intros E. assert (Ln : length d' = length d) by (apply (f_equal (@length _)) in E; now rewrite !map_length in E).
  unfold analyse, range_. destruct (make Buy n) as [sd|]; [cbn [bind]|reflexivity]. unfold len. rewrite Ln. apply for_ext. intros i st Hi.
  assert (G : forall k, match get d' k, get d k with Ok v', Ok v => rVal v' = rVal v | Panic, Panic => True | _, _ => False end).
  { intros k. unfold get. assert (Q : nth_error (map (@rVal A) d') (Z.to_nat k) = nth_error (map (@rVal A) d) (Z.to_nat k)) by now rewrite E. rewrite !nth_error_map in Q.
    destruct (_ <? 0); [exact I|]. destruct (nth_error d' _), (nth_error d _); cbn in Q; try discriminate; [now injection Q|exact I]. }
  pose proof (G i) as Gi. destruct (get d' i) as [v'|], (get d i) as [v|]; try contradiction; [cbn [bind]|reflexivity]. destruct (i <? from); [reflexivity|].
  pose proof (G (i - 1)) as Gp. destruct (get d' (i - 1)) as [w'|], (get d (i - 1)) as [w|]; try contradiction; [cbn [bind]|reflexivity]. now rewrite Gi, Gp.
Qed.
Lemma crossing_signals (I : Indicator (N := XR)) (p : Param I) b s : ignores_level I p (fun v => v) ->
  (forall kl r, rows_of I p kl = Ok r -> sides_of I p kl = crossing kl r b s) -> same_signals I p.
Proof.
  intros HI HS c kl Hr. destruct (HI c kl Hr) as (r & r' & E & E' & Lr & Q). rewrite (HS _ _ E), (HS _ _ E').
  destruct (y_crossing kl r b s Lr) as (sd & Es). exists sd. split; [exact Es|]. rewrite <- Es. unfold crossing, len. rewrite map_length. now apply analyse_vals.
Qed.
Tactic Notation "sides_are" reference(I) reference(f) := let E := fresh in intros ? ? E; unfold sides_of, AnalysisSide; cbn [Sides I]; unfold rows_of in E; rewrite E; cbn [bind];
  unfold f; match goal with |- rmap snd (bind ?m _) = _ => transitivity m; [destruct m; reflexivity|reflexivity] end.
Theorem C97_signals :
  (forall p, 0 <= mShort p -> 0 <= mLong p -> same_signals I_Macd p) /\ (forall p, 0 <= fsFast p -> 0 <= fsSlow p -> same_signals I_APO p) /\ same_signals I_AO tt /\
  (forall p, same_signals I_Chaikin p) /\ (forall p, (2 <= p)%nat -> same_signals I_Kdj (Z.of_nat p)) /\ (forall p, 1 <= p -> same_signals I_Williams p) /\ (forall p, 1 <= p -> same_signals I_Stoch p) /\
  (forall p, (1 <= p)%nat -> same_signals I_Cci (mkCciP (Z.of_nat p) (Z.of_nat p)) /\ same_signals I_AiCoinCCI (Z.of_nat p)).
Proof.
  repeat apply conj.
  - intros p H1 H2. eapply crossing_signals; [now apply C97_Macd|sides_are I_Macd macd_sides].
  - intros p H1 H2. eapply crossing_signals; [now apply C97_APO|sides_are I_APO sign_sides].
  - eapply crossing_signals; [apply C97_AO|sides_are I_AO sign_sides].
  - intros p. eapply crossing_signals; [apply C97_Chaikin|sides_are I_Chaikin chaikin_sides].
  - intros p Hp. eapply crossing_signals; [now apply C97_Kdj|sides_are I_Kdj kdj_sides].
  - intros p Hp. eapply crossing_signals; [now apply C97_Williams|sides_are I_Williams williams_sides].
  - intros p Hp. eapply crossing_signals; [now apply C97_Stochastic|sides_are I_Stoch kd_sides].
  - intros p Hp. destruct (C97_Cci Hp) as [A B]. split; (eapply crossing_signals; [eassumption|]); [sides_are I_Cci cci_sides|sides_are I_AiCoinCCI cci_sides].
Qed.
Theorem C97_Rsi_signals (p : nat) (c : R) (kl : kline) : (2 <= p)%nat -> (p < length kl)%nat -> real_candles kl ->
  exists s, sides_of I_Rsi (Z.of_nat p) kl = Ok s /\ sides_of I_Rsi (Z.of_nat p) (map (lifted c) kl) = Ok s.
Proof.
  intros Hp Hl Hr. destruct (C97_Rsi c Hp Hl Hr) as (r & E & E'). assert (Lr : length r = length kl) by (rewrite Rsi_T in E by assumption; injection E as <-; apply tab_length).
  assert (S : forall kl' r', rows_of I_Rsi (Z.of_nat p) kl' = Ok r' -> sides_of I_Rsi (Z.of_nat p) kl' = rsi_sides (N := XR) (Z.of_nat p) kl' r') by sides_are I_Rsi rsi_sides.
  rewrite (S _ _ E), (S _ _ E'). unfold rsi_sides. destruct (y_crossing kl r (fun v p => (v <~ ofZ 20) && (ofZ 20 <~ p)) (fun v p => (v <~ ofZ 80) && (ofZ 80 <~ p)) Lr) as (s & Es).
  exists s. split; [exact Es|]. rewrite <- Es. unfold crossing, len. now rewrite map_length.
Qed.
(** indicators that compare the price with a line of their own *)
Lemma price_same A c kl (t t' : nat -> Z) (g g' : nat -> A) b s : real_candles kl ->
  (forall i j, (i < length kl)%nat -> (j < length kl)%nat -> b (C (map (lifted c) kl) i) (C (map (lifted c) kl) j) (g' i) (g' j) = b (C kl i) (C kl j) (g i) (g j)) ->
  (forall i j, (i < length kl)%nat -> (j < length kl)%nat -> s (C (map (lifted c) kl) i) (C (map (lifted c) kl) j) (g' i) (g' j) = s (C kl i) (C kl j) (g i) (g j)) ->
  exists r, price_crossing kl (tab (length kl) (fun i => mkRow (t i) (g i))) b s = Ok r /\ price_crossing (map (lifted c) kl) (tab (length kl) (fun i => mkRow (t' i) (g' i))) b s = Ok r.
Proof.
  intros Hr Hb Hs. destruct (y_price kl (tab (length kl) (fun i => mkRow (t i) (g i))) b s (tab_length _ _)) as (r & E). exists r. split; [exact E|]. rewrite <- E.
  unfold price_crossing. rewrite !OHLC_T. cbn [bind oClose OH]. unfold analyse, len. rewrite map_length. destruct (make Buy _); [cbn [bind]|reflexivity].
  unfold range_, len. rewrite !tab_length. apply for_ext. intros i st Hi. destruct (i <? 1) eqn:E1; [rewrite <- (Z2Nat.id i) by lia; rewrite !get_tab by lia; reflexivity|]. apply Z.ltb_ge in E1.
  rewrite <- (Z2Nat.id i) by lia. replace (Z.of_nat (Z.to_nat i) - 1) with (Z.of_nat (Z.to_nat (i - 1))) by lia. rewrite !get_tab by lia. cbn [bind rVal].
  now rewrite Hb, Hs by lia.
Qed.
Theorem C97_channel_signals :
  (forall p, 1 <= blN p -> same_signals I_Boll p) /\ (forall p, 1 <= p -> same_signals I_Donchian p) /\ (forall p, 1 <= p -> same_signals I_Keltner p).
Proof.
  assert (S1 : forall p kl r, rows_of I_Boll p kl = Ok r -> sides_of I_Boll p kl = boll_sides (N := XR) p kl r) by (intros p; sides_are I_Boll boll_sides).
  assert (S2 : forall p kl r, rows_of I_Donchian p kl = Ok r -> sides_of I_Donchian p kl = middle_sides (N := XR) kl r) by (intros p; sides_are I_Donchian middle_sides).
  assert (S3 : forall p kl r, rows_of I_Keltner p kl = Ok r -> sides_of I_Keltner p kl = middle_sides (N := XR) kl r) by (intros p; sides_are I_Keltner middle_sides).
  assert (X : forall A (f : A -> @F XR) n k (r r' : list (row A)) (g g' : nat -> A) t t', r = tab n (fun i => mkRow (t i) (g i)) -> r' = tab n (fun i => mkRow (t' i) (g' i)) ->
     skipn 0 (column f r') = map (fun x => x +~ (Fin k : @F XR)) (skipn 0 (column f r)) -> (forall i, (i < n)%nat -> isR (f (g i))) -> moved k n (fun i => f (g i)) (fun i => f (g' i))).
  { intros A f n k r r' g g' t t' -> -> Q HR i Hi. cbn [skipn] in Q. unfold column in Q. rewrite !tabmap in Q. cbn [rVal] in Q. apply (f_equal (fun l => nth_error l i)) in Q. rewrite !nth_error_tab in Q by exact Hi. injection Q as Q.
    destruct (HR i Hi) as (y & E). exists y. split; [exact E|]. rewrite Q, E. reflexivity. }
  repeat apply conj.
  - intros p Hp c kl Hr. destruct (C97_Boll p Hp) as (U & _ & D & _).
    rewrite (S1 _ _ _ (Boll_T p kl Hp)), (S1 _ _ _ (Boll_T p (map (lifted c) kl) Hp)), map_length.
    destruct kl as [|k0 kl0]; [exists []; split; reflexivity|]. remember (k0 :: kl0) as kl eqn:Ek. assert (Hl : (1 <= length kl)%nat) by (subst kl; cbn; lia).
    assert (RB : forall i, (i < length kl)%nat -> isR (blUpper (bollF (Z.to_nat (blN p)) kl i)) /\ isR (blLower (bollF (Z.to_nat (blN p)) kl i))).
    { intros i Hi. destruct (@C52_exact p kl (nums (fun k => cClose k) kl) Hp (nums_fins _ Hr bar_close)) as (r & E & _ & Q). rewrite Boll_T in E by exact Hp. injection E as <-. specialize (Q i _ (nth_error_tab _ Hi)). cbn [rVal] in Q. cbn zeta in Q.
      destruct Q as (_ & _ & -> & ->). split; eexists; reflexivity. }
    assert (MU : moved c (length kl) (fun i => blUpper (bollF (Z.to_nat (blN p)) kl i)) (fun i => blUpper (bollF (Z.to_nat (blN p)) (map (lifted c) kl) i))).
    { destruct (U c kl Hr Hl) as (r & r' & E & E' & _ & Q). rewrite Boll_T in E, E' by exact Hp. injection E as E. injection E' as E'. rewrite map_length in E'. eapply X; [exact (eq_sym E)|exact (eq_sym E')|exact Q|]. intros i Hi. now apply RB. }
    assert (MD : moved c (length kl) (fun i => blLower (bollF (Z.to_nat (blN p)) kl i)) (fun i => blLower (bollF (Z.to_nat (blN p)) (map (lifted c) kl) i))).
    { destruct (D c kl Hr Hl) as (r & r' & E & E' & _ & Q). rewrite Boll_T in E, E' by exact Hp. injection E as E. injection E' as E'. rewrite map_length in E'. eapply X; [exact (eq_sym E)|exact (eq_sym E')|exact Q|]. intros i Hi. now apply RB. }
    apply price_same; [exact Hr| |]; intros i j Hi Hj; pose proof (lift_close c Hr Hi) as Ci; pose proof (lift_close c Hr Hj) as Cj; cbn beta in Ci, Cj.
    + now rewrite (lt_same (MU i Hi) Ci), (lt_same Cj (MU j Hj)).
    + now rewrite (lt_same Ci (MD i Hi)), (lt_same Cj Cj).
  - intros p Hp c kl Hr.
    destruct (@Donchian_T XR XR_ord p kl Hp (real_no_nan _ bar_close Hr)) as (u & l & Hu & Hl & E). destruct (@Donchian_T XR XR_ord p (map (lifted c) kl) Hp (real_no_nan _ bar_close (lift_real c Hr))) as (u' & l' & Hu' & Hl' & E').
    rewrite (S2 _ _ _ E), (S2 _ _ _ E'), map_length.
    assert (M : moved c (length kl) (fun i => (u i +~ l i) *~ (ofZ 1 /~ ofZ 2)) (fun i => (u' i +~ l' i) *~ (ofZ 1 /~ ofZ 2))).
    { intros i Hi. rewrite half_is. eapply mrel_w; [apply mrel_mulc, mrel_add; [apply (top_shift c bar_close (fun k => eq_refl) Hr Hu Hu' Hi)|apply (bottom_shift c bar_close (fun k => eq_refl) Hr Hl Hl' Hi)]|lra]. }
    apply price_same; [exact Hr| |]; intros i j Hi Hj; pose proof (lift_close c Hr Hi) as Ci; pose proof (lift_close c Hr Hj) as Cj; cbn beta in Ci, Cj; cbn [bMiddle].
    + now rewrite (lt_same (M i Hi) Ci), (lt_same Cj (M j Hj)).
    + now rewrite (lt_same Ci (M i Hi)), (lt_same (M j Hj) Cj).
  - intros p Hp c kl Hr. rewrite (S3 _ _ _ (Keltner_T p kl)), (S3 _ _ _ (Keltner_T p (map (lifted c) kl))), map_length.
    assert (M : moved c (length kl) (emaF p (C kl)) (emaF p (C (map (lifted c) kl)))) by (apply moved_ema; [lia|now apply lift_close]).
    apply price_same; [exact Hr| |]; intros i j Hi Hj; pose proof (lift_close c Hr Hi) as Ci; pose proof (lift_close c Hr Hj) as Cj; cbn beta in Ci, Cj; unfold keltF; cbn [bMiddle].
    + now rewrite (lt_same (M i Hi) Ci), (lt_same Cj (M j Hj)).
    + now rewrite (lt_same Ci (M i Hi)), (lt_same (M j Hj) Cj).
Qed.
Theorem C97_cross_signals :
  (forall p, 0 <= xFastP p -> 0 <= xSlowP p -> same_signals I_TraderXO p) /\
  (forall p, 0 <= vgP p -> 0 <= vgS1 p -> 0 <= vgS2 p -> 0 <= vgL1 p -> 0 <= vgL2 p -> same_signals I_EMAVegas p).
Proof.
  assert (S1 : forall p kl r, rows_of I_TraderXO p kl = Ok r -> sides_of I_TraderXO p kl = traderxo_sides (N := XR) r) by (intros p; sides_are I_TraderXO traderxo_sides).
  assert (S2 : forall p kl r, rows_of I_EMAVegas p kl = Ok r -> sides_of I_EMAVegas p kl = vegas_sides (N := XR) kl r) by (intros p; sides_are I_EMAVegas vegas_sides).
  split.
  - intros p H1 H2 c kl Hr. rewrite (S1 _ _ _ (TraderXO_T p kl)), (S1 _ _ _ (TraderXO_T p (map (lifted c) kl))), map_length.
    pose proof (moved_ema H1 (lift_close c Hr)) as MF. pose proof (moved_ema H2 (lift_close c Hr)) as MS.
    match goal with |- exists s, traderxo_sides ?d = _ /\ _ => destruct (y_xo d) as (s & Es) end. exists s. split; [exact Es|]. rewrite <- Es.
    unfold traderxo_sides, len. rewrite !tab_length. destruct (make Buy _); [cbn [bind]|reflexivity]. destruct (make false _); [cbn [bind]|reflexivity]. f_equal. apply for_ext. intros i st Hi.
    destruct (i <? 1); [reflexivity|]. rewrite <- (Z2Nat.id i) by lia. rewrite !get_tab by lia. cbn [bind rVal xFast xSlow]. assert (Hi' : (Z.to_nat i < length kl)%nat) by lia.
    now rewrite (lt_same (MS _ Hi') (MF _ Hi')), (lt_same (MF _ Hi') (MS _ Hi')).
  - intros p H1 H2 H3 H4 H5 c kl Hr. rewrite (S2 _ _ _ (EMAVegas_T p kl)), (S2 _ _ _ (EMAVegas_T p (map (lifted c) kl))), map_length.
    pose proof (moved_ema H1 (lift_close c Hr)) as M1. pose proof (moved_ema H2 (lift_close c Hr)) as M2. pose proof (moved_ema H3 (lift_close c Hr)) as M3. pose proof (moved_ema H4 (lift_close c Hr)) as M4. pose proof (moved_ema H5 (lift_close c Hr)) as M5.
    match goal with |- exists s, vegas_sides kl ?d = _ /\ _ => destruct (y_vegas kl d (tab_length _ _)) as (s & Es) end. exists s. split; [exact Es|]. rewrite <- Es.
    unfold vegas_sides. rewrite !OHLC_T. cbn [bind oBull OH]. unfold len. rewrite !tab_length, map_length. destruct (make Buy _); [cbn [bind]|reflexivity]. apply for_ext. intros i st Hi.
    destruct (i <? 1); [reflexivity|]. rewrite <- (Z2Nat.id i) by lia. rewrite !get_tab by lia. cbn [bind rVal]. destruct (_ <? 0) eqn:E0; [reflexivity|]. apply Z.ltb_ge in E0.
    assert (Hi' : (Z.to_nat i < length kl)%nat) by lia.
    assert (Cx : vegas_cross (tab (length kl) (fun i => mkRow (tm (map (lifted c) kl) i) (vegasF p (map (lifted c) kl) i))) (Z.of_nat (Z.to_nat i)) = vegas_cross (tab (length kl) (fun i => mkRow (tm kl i) (vegasF p kl i))) (Z.of_nat (Z.to_nat i))).
    { unfold vegas_cross. apply for_ext. intros k [t1 d1] Hk. replace k with (Z.of_nat (Z.to_nat k)) by lia. replace (Z.of_nat (Z.to_nat k) - 1) with (Z.of_nat (Z.to_nat (k - 1))) by lia. rewrite !get_tab by lia. cbn [bind rVal]. unfold vegasF. cbn [gV gS1 gS2 gL1 gL2].
      assert (Hk1 : (Z.to_nat k < length kl)%nat) by lia. assert (Hk2 : (Z.to_nat (k - 1) < length kl)%nat) by lia.
      now rewrite (lt_same (M5 _ Hk1) (M3 _ Hk1)), (lt_same (M3 _ Hk2) (M5 _ Hk2)), (lt_same (M3 _ Hk1) (M5 _ Hk1)), (lt_same (M5 _ Hk2) (M3 _ Hk2)). }
    rewrite Cx. rewrite cn_lift by exact Hi'. cbn [lifted cBull].
    assert (U : vegas_up (vegasF p (map (lifted c) kl) (Z.to_nat i)) = vegas_up (vegasF p kl (Z.to_nat i))).
    { unfold vegas_up, vegasF. cbn [gV gS1 gS2 gL1 gL2]. now rewrite (lt_same (M2 _ Hi') (M1 _ Hi')), (lt_same (M4 _ Hi') (M2 _ Hi')), (lt_same (M5 _ Hi') (M2 _ Hi')), (lt_same (M4 _ Hi') (M3 _ Hi')), (lt_same (M5 _ Hi') (M3 _ Hi')). }
    assert (D : vegas_dn (vegasF p (map (lifted c) kl) (Z.to_nat i)) = vegas_dn (vegasF p kl (Z.to_nat i))).
    { unfold vegas_dn, vegasF. cbn [gV gS1 gS2 gL1 gL2]. now rewrite (lt_same (M1 _ Hi') (M2 _ Hi')), (lt_same (M2 _ Hi') (M4 _ Hi')), (lt_same (M2 _ Hi') (M5 _ Hi')), (lt_same (M3 _ Hi') (M4 _ Hi')), (lt_same (M3 _ Hi') (M5 _ Hi')). }
    now rewrite U, D.
Qed.

(** ** Where the library treats the missing previous price as 0, the level shows *)
Theorem C97_first_bar_refuted :
  ~ (forall p, 0 <= p -> ignores_level I_Force p (fun v => v)) /\ ~ (forall p, ignores_level I_Atr p (fun v => aTR v)) /\ ~ (forall p, 1 <= p -> ignores_level I_EMV p (fun v => v)).
Proof.
  assert (R1 : forall l, real_candles (map at_price l)) by apply at_price_real.
  repeat apply conj; intros HF.
  - specialize (HF 1 ltac:(lia) 1%R [at_price 10] (R1 [10%R])). destruct HF as (r & r' & E & E' & _ & Q). rewrite Force_T in E, E'. injection E as <-. injection E' as <-.
    cbn in Q. injection Q as Q. lra.
  - specialize (HF 1 1%R [at_price 10] (R1 [10%R])). destruct HF as (r & r' & E & E' & _ & Q). rewrite Atr_ind_T in E, E'. injection E as <-. injection E' as <-.
    assert (TR : forall x, trF [at_price x] 0 = Fin (Rmax (x - x) (Rmax (x - 0) (x - 0)))).
    { intros x. unfold trF. change (fmax (N := XR) (Fin (x - x)) (fmax (N := XR) (Fin (x - 0)) (Fin (x - 0))) = Fin (Rmax (x - x) (Rmax (x - 0) (x - 0)))). now rewrite !xr_max. }
    change (map (lifted 1) [at_price 10]) with [at_price (10 + 1)] in Q. unfold column in Q. rewrite !tabmap in Q. apply (f_equal (fun l => nth 0 l (Fin 0))) in Q. cbn [length] in Q. rewrite !tab_nth in Q by lia.
    cbn [rVal atrG aTR] in Q. rewrite !TR in Q. change (lifted 1 (at_price 10)) with (at_price (10 + 1)) in Q. rewrite TR in Q. injection Q as Q. revert Q. unfold Rmax. repeat destruct (Rle_dec _ _); lra.
  - set (k0 := mkCandle (N := XR) (Fin 0) 0 (Fin 10) (Fin 10) (Fin 9) (Fin 11) (Fin 100000000) (Fin 0) false 0).
    assert (Rk : real_candles [k0]) by (exists [mkBar 10 11 9 10 100000000]; repeat constructor).
    specialize (HF 1 ltac:(lia) 1%R [k0] Rk). destruct HF as (r & r' & E & E' & _ & Q). rewrite EMV_T in E, E' by lia. injection E as <-. injection E' as <-.
    unfold column in Q. rewrite !tabmap in Q. cbn [length map rVal] in Q. apply (f_equal (fun l => nth 0 l (Fin 0))) in Q. rewrite !tab_nth in Q by lia.
    assert (V : forall c, emvF [lifted c k0] 0 = Fin (20 + 2 * c)).
    { intros c. unfold emvF, midF. change (Z.to_nat 1) with 1%nat. cbn [Nat.ltb Nat.leb]. rewrite half_is. cbn [cn nth k0 lifted cHigh cLow cVolume cClose].
      assert (D8 : (@ofZ XR 1 /~ ofZ 100000000 : @F XR) = (Fin (/ 100000000) : @F XR)) by (cbn; destruct (Reqb_spec 100000000 0); [lra|f_equal; lra]). rewrite D8.
      change (div_clean (N := XR) (Fin ((11 + c + (9 + c)) * / 2 + 0 * -1)) (div_clean (N := XR) (Fin (100000000 * / 100000000)) (Fin (11 + c + (9 + c) * -1))) = Fin (20 + 2 * c)).
      rewrite !PropInd8.div_clean_exact. rewrite !SpecBar.ratio_nz; try lra; [f_equal; field; lra|rewrite SpecBar.ratio_nz by lra; replace (100000000 * / 100000000 / (11 + c + (9 + c) * -1))%R with (/ 2)%R by (field; lra); lra]. }
    assert (SV : forall c, smaF (Z.to_nat 1) (emvF [lifted c k0]) 0 = Fin (20 + 2 * c)).
    { intros c. change (Z.to_nat 1) with 1%nat. rewrite (@smaF_exact 1 (emvF [lifted c k0]) (fun _ => 20 + 2 * c)%R 1 0) by first [lia|intros [|j] Hj; [apply V|lia]].
      f_equal. unfold mean, Rsum. cbn. lra. }
    assert (E0 : [k0] = [lifted 0 k0]) by (unfold lifted, k0; cbn; now rewrite !Rplus_0_r).
    change (smaF (Z.to_nat 1) (emvF [lifted 1 k0]) 0 = smaF (Z.to_nat 1) (emvF [k0]) 0) in Q. rewrite E0, !SV in Q. injection Q as Q. lra.
Qed.

(** the hypotheses are met: two charts that differ only by their level *)
Example C97_hyp : real_candles (map at_price [10; 12; 11]%R) /\ map (lifted 90) (map at_price [10; 12; 11]%R) = map at_price [10 + 90; 12 + 90; 11 + 90]%R.
Proof. split; [apply at_price_real|reflexivity]. Qed.
Print Assumptions C97_LinearRegCandles.
Print Assumptions C97_signals.
Print Assumptions C97_Rsi_signals.
Print Assumptions C97_channel_signals.
Print Assumptions C97_cross_signals.
Print Assumptions C97_first_bar_refuted.
