(** * PropFlat4: property C99, continued: movement, regression and volume indicators, and a strategy that trades on volume alone. *)
From Coq Require Import Reals Lra ZArith Lia Bool List PeanoNat.
From Verif Require Import Base Num XReal Order OrderMore FloatLaws FloatOrder FloatBounds SpecNum B64 Lits Containers Ta TaTools TaAvg TaRange TaStat TaOrd SpecTa Sides Klines RSum XrMore
  IndBase IndTrend IndChannel IndOsc IndVolume IndAll IndTools IndForms IndForms2 IndForms3 IndForms4 IndForms5 IndFormsSpec IndMachines IndBounds IndBounds2 IndExact TaDev TaReg SpecInd SpecInd2 SpecBar SpecMemory SpecFlat
  CountLaw IndLife CrashSides PropTa1 PropTa2 PropInd1 PropInd2 PropInd3 PropInd5 PropInd6 PropInd7 PropInd8 PropInd9 PropInd11 PropInd12 PropInd13 PropInd14 PropBands PropMemory ShiftTools PropMirror3 Crash CrashInd PropFlat PropFlat2 PropFlat3.
Import ListNotations.
Set Implicit Arguments.
Open Scope Z_scope.
Local Notation H kl := (fun i => cHigh (cn kl i)).
Local Notation L kl := (fun i => cLow (cn kl i)).
Local Notation C kl := (fun i => cClose (cn kl i)).
Local Notation rows kl g := (Ok (tab (length kl) (fun i => mkRow (tm kl i) (g i)))).
Local Notation kline := (list (Candle (N := XR))).
Local Notation the_price := (fun c : R => c).
Local Notation nought := (fun _ : R => 0%R).
Local Notation zero := (Fin 0 : @F XR).

Lemma nan_00 : zero /~ zero = (NaN : @F XR).
Proof. cbn. rewrite Reqb_00. unfold inf_sgn. now rewrite Rltb_00. Qed.
Lemma abs_0 : fabs zero = zero.
Proof. cbn. apply (f_equal Fin), Rabs_R0. Qed.
Lemma sub_self c : (Fin c : @F XR) -~ (Fin c : @F XR) = zero.
Proof. cbn. apply (f_equal Fin). lra. Qed.
Lemma still_tr3 c kl : flat_market c kl -> still (length kl) (tr3F kl) 0.
Proof.
  intros Hf [|j] Hj; [reflexivity|]. unfold tr3F. destruct (fl_at Hf (i := j)) as (_ & _ & _ & -> & _); [lia|]. destruct (fl_at Hf (i := S j)) as (_ & -> & -> & _); [lia|].
  rewrite !sub_self, abs_0, !xr_max. apply (f_equal Fin). unfold Rmax. now repeat destruct (Rle_dec _ _).
Qed.
Lemma still_ring p n f : still n f 0 -> still n (ringS p f) 0.
Proof.
  intros Hf j. induction j as [|j IH]; intros Hj; [reflexivity|]. cbn [ringS]. rewrite IH, (Hf (S j)) by lia. unfold lagged0. destruct (S j <=? p)%nat; [|rewrite (Hf (S j - p)%nat) by lia]; cbn; apply (f_equal Fin); lra.
Qed.
(** ** The vortex lines divide nought by nought *)
Theorem C99_Vortex_refuted p c kl : 1 <= p -> flat_market c kl ->
  exists r, rows_of (N := XR) I_Vortex p kl = Ok r /\ length r = length kl /\
  skipn 1 (column (fun v => vPlus v) r) = repeat (NaN : @F XR) (length kl - 1) /\ skipn 1 (column (fun v => vMinus v) r) = repeat (NaN : @F XR) (length kl - 1).
Proof.
  intros Hp Hf. rewrite Vortex_T by exact Hp. eexists. split; [reflexivity|]. split; [apply tab_length|].
  assert (A : forall i, (1 <= i < length kl)%nat -> vortexF (Z.to_nat p) kl i = mkVortexV (NaN : @F XR) (NaN : @F XR)).
  { intros [|j] Hi; [lia|]. unfold vortexF.
    assert (P : still (length kl) (vPF kl) 0) by (intros [|k] Hk; [reflexivity|]; unfold vPF; rewrite (fl_high Hf), (fl_low Hf), sub_self, abs_0 by lia; reflexivity).
    assert (M : still (length kl) (vMF kl) 0) by (intros [|k] Hk; [reflexivity|]; unfold vMF; rewrite (fl_high Hf), (fl_low Hf), sub_self, abs_0 by lia; reflexivity).
    rewrite (still_ring _ P), (still_ring _ M), (still_ring _ (still_tr3 Hf)), nan_00 by lia. reflexivity. }
  split; (apply col_all; [apply tab_length|]); intros i v Hi Hv; apply tab_some in Hv as [Hl ->]; cbn [rVal]; rewrite A by lia; reflexivity.
Qed.
Print Assumptions C99_Vortex_refuted.
(** ** ADX: the directional lines do the same; their average is cleaned to nought *)
Lemma still_smooth p n f : 1 <= p -> still n f 0 -> still n (smoothF p f) 0.
Proof.
  intros Hp Hf j. induction j as [|j IH]; intros Hj; [reflexivity|]. cbn [smoothF]. rewrite IH, (Hf (S j)) by lia. cbn. destruct (Reqb_spec (IZR p) 0) as [E|E]; [|apply (f_equal Fin); field; exact E].
  exfalso. apply (eq_IZR p 0) in E. lia.
Qed.
Lemma dm_0 c : calculateDM (Fin c : @F XR) (Fin c) (Fin c) (Fin c) = (zero, zero).
Proof. unfold calculateDM. rewrite !sub_self. change (ofZ 0) with zero. rewrite !xr_lt, Rltb_00. reflexivity. Qed.
Lemma fl_di p l c kl : 1 <= p -> 1 <= l -> flat_market c kl -> forall i, (i < length kl)%nat ->
  diF (N := XR) p l kl i = if (i <? Z.to_nat (p - 1))%nat then (zero, zero, zero) else (NaN, NaN, NaN).
Proof.
  intros Hp Hl Hf i Hi. unfold diF. destruct (i <? Z.to_nat (p - 1))%nat; [reflexivity|].
  assert (D : forall j, (j < length kl)%nat -> dmF kl j = (zero, zero)).
  { intros [|j] Hj; [reflexivity|]. unfold dmF. rewrite !(fl_high Hf), !(fl_low Hf) by lia. apply dm_0. }
  rewrite (@still_smooth l (length kl) (fun i => fst (dmF kl i)) Hl) by (try assumption; intros j Hj; rewrite D by exact Hj; reflexivity).
  rewrite (@still_smooth l (length kl) (fun i => snd (dmF kl i)) Hl) by (try assumption; intros j Hj; rewrite D by exact Hj; reflexivity).
  rewrite (@still_smooth l (length kl) (tr3F kl) Hl (still_tr3 Hf)) by exact Hi. unfold adx_di. rewrite nan_00. reflexivity.
Qed.
Theorem C99_ADX_refuted p c kl : 1 <= axPeriod p -> 1 <= axLen p -> flat_market c kl ->
  let k := Z.to_nat (axPeriod p - 1) in
  exists r, rows_of (N := XR) I_ADX p kl = Ok r /\ length r = length kl /\
  skipn k (column (fun v => axPlus v) r) = repeat (NaN : @F XR) (length kl - k) /\ skipn k (column (fun v => axMinus v) r) = repeat (NaN : @F XR) (length kl - k).
Proof.
  intros Hp Hl Hf k. rewrite ADX_T by lia. eexists. split; [reflexivity|]. split; [apply tab_length|].
  split; (apply col_all; [apply tab_length|]); intros i v Hi Hv; apply tab_some in Hv as [Hn ->]; cbn [rVal]; unfold adxF; rewrite (fl_di Hp Hl Hf) by exact Hn; fold k; (destruct (Nat.ltb_spec i k); [lia|reflexivity]).
Qed.
Print Assumptions C99_ADX_refuted.
Lemma run_nan p (f : nat -> @F XR) k i : (k < i)%nat -> f k = NaN -> runF p f i = (NaN : @F XR).
Proof.
  intros Hi Hk. induction i as [|i IH]; [lia|]. cbn [runF]. assert (A : runF p f i +~ f i = NaN).
  { destruct (Nat.eq_dec k i) as [<-|]; [rewrite Hk; now destruct (runF p f k)|]. rewrite IH by lia. reflexivity. }
  rewrite A. now destruct (p <=? i)%nat.
Qed.
Theorem C99_ADX p : 1 <= axPeriod p -> 1 <= axLen p -> rests_at I_ADX p (fun v => axADX v) nought 0 0.
Proof.
  intros Hp Hl. apply rests_F with (G := fun kl => adxF (axPeriod p) (axLen p) kl); [intros kl; apply ADX_T; lia|]. intros c kl Hc Hf i Hi. cbn [axADX adxF].
  set (k := Z.to_nat (axPeriod p - 1)). destruct (Nat.lt_ge_cases i k) as [Hk|Hk].
  - refine (still_sma (n := S i) _ _ _); try lia. intros j Hj. cbn beta. rewrite (fl_di Hp Hl Hf) by lia. fold k. destruct (Nat.ltb_spec j k); [reflexivity|lia].
  - assert (K : snd (diF (N := XR) (axPeriod p) (axLen p) kl k) = NaN).
    { rewrite (fl_di Hp Hl Hf (i := k)); [|lia]. fold k. now rewrite Nat.ltb_irrefl. }
    unfold smaF. rewrite (@run_nan _ (fun j => snd (diF (N := XR) (axPeriod p) (axLen p) kl j)) k (S i)); [reflexivity|lia|exact K].
Qed.
Print Assumptions C99_ADX.

(** ** The best line through points at one height is that height *)
Lemma fit_flat b m (pts : list (R * R)) c : least_squares b m pts -> (forall q, In q pts -> snd q = c) -> b = c /\ m = 0%R.
Proof.
  intros [_ U] Hq. assert (Z0 : sse c 0 pts = 0%R).
  { unfold sse. clear U. induction pts as [|q pts IH]; [reflexivity|]. cbn [map]. rewrite Rsum_cons, IH by (intros; apply Hq; now right). rewrite (Hq q (or_introl eq_refl)). lra. }
  destruct (U c 0%R) as [A B]; [|split; congruence]. rewrite Z0. unfold sse. apply Rsum_nonneg. intros x Hx. apply in_map_iff in Hx as (q & <- & _). apply Rle_0_sqr.
Qed.
Lemma points_snd ys q : In q (points ys) -> In (snd q) ys.
Proof. unfold points. destruct q as [x y]. apply in_combine_r. Qed.
Lemma fl_fins c kl (q : Candle (N := XR) -> @F XR) : still (length kl) (fun i => q (cn kl i)) c -> map q kl = fins (repeat c (length kl)).
Proof. intros Hq. rewrite (@fl_map c kl q Hq). unfold fins. now rewrite map_repeat. Qed.
Lemma fl_lr p c kl (q : Candle (N := XR) -> @F XR) r : 2 <= p -> still (length kl) (fun i => q (cn kl i)) c -> p <= len kl -> LinearReg (N := XR) (map q kl) p = Ok r ->
  skipn (Z.to_nat p - 1) r = repeat (Fin c : @F XR) (length kl - (Z.to_nat p - 1)).
Proof.
  intros Hp Hq Hn E. rewrite (@fl_fins c kl q Hq) in E. destruct (@C15_LinearReg_is_least_squares (Z.to_nat p) (repeat c (length kl))) as (b & m & LS & _ & _ & E' & _); [lia|rewrite repeat_length; unfold len in Hn; lia|].
  rewrite Z2Nat.id in E' by lia. rewrite E in E'. injection E' as ->. rewrite repeat_length. apply all_same; [apply tab_length|]. intros i y Hi Hy. apply tab_some in Hy as [Hl ->]. destruct (Nat.ltb_spec (S i) (Z.to_nat p)); [lia|].
  destruct (@fit_flat (b i) (m i) _ c (LS i ltac:(lia) ltac:(rewrite repeat_length; lia))) as [-> ->].
  { intros qq Hin. apply points_snd, window_In in Hin. now apply repeat_spec in Hin. }
  apply (f_equal Fin). lra.
Qed.
Theorem C99_LinearRegressionCandles p : 2 <= lrLength p -> (lrSMA p = true -> 0 <= lrSmooth p) ->
  let n := Z.to_nat (lrLength p) in
  rests_at I_LRC p (fun v => lcOpen v) the_price n (n - 1) /\ rests_at I_LRC p (fun v => lcHigh v) the_price n (n - 1) /\
  rests_at I_LRC p (fun v => lcLow v) the_price n (n - 1) /\ rests_at I_LRC p (fun v => lcClose v) the_price n (n - 1).
Proof.
  intros Hp Hs n.
  assert (A : forall c kl, flat_market c kl -> (n <= length kl)%nat -> exists r, rows_of (N := XR) I_LRC p kl = Ok r).
  { intros c kl Hf Hn. destruct (rows_of (N := XR) I_LRC p kl) eqn:E; [eauto|]. apply C81_panics_iff in E. unfold len in E. destruct E as [E|[E|[E1 E2]]]; [lia|lia|specialize (Hs E1); lia]. }
  repeat apply conj; intros c kl Hc Hf Hn; destruct (A c kl Hf Hn) as (r & E); exists r; (split; [exact E|]); destruct (@C81_candles XR p kl r E) as (E1 & E2 & E3 & E4 & _);
  (assert (Lr : length r = length kl) by (
    rewrite (@fl_fins c kl (fun k => cOpen k) (fl_open Hf)) in E1; destruct (@C15_LinearReg_is_least_squares n (repeat c (length kl))) as (b & m & _ & _ & _ & E' & _); [unfold n; lia|now rewrite repeat_length|];
    unfold n in E'; rewrite Z2Nat.id in E' by lia; rewrite E1 in E'; injection E' as E'; apply (f_equal (@length _)) in E'; rewrite tab_length, repeat_length in E'; unfold column in E'; now rewrite map_length in E'));
  (split; [exact Lr|]).
  - exact (@fl_lr _ c kl (fun k => cOpen k) _ Hp (fl_open Hf) ltac:(unfold len; lia) E1).
  - exact (@fl_lr _ c kl (fun k => cHigh k) _ Hp (fl_high Hf) ltac:(unfold len; lia) E2).
  - exact (@fl_lr _ c kl (fun k => cLow k) _ Hp (fl_low Hf) ltac:(unfold len; lia) E3).
  - exact (@fl_lr _ c kl (fun k => cClose k) _ Hp (fl_close Hf) ltac:(unfold len; lia) E4).
Qed.
Print Assumptions C99_LinearRegressionCandles.

(** ** The projection oscillator has nothing to project *)
Lemma rmax_same c (l : list R) : l <> [] -> (forall x, In x l -> x = c) -> rmax l = c.
Proof.
  intros Hl H0. unfold rmax. assert (Hh : hd 0%R l = c) by (destruct l; [congruence|cbn; apply H0; now left]). rewrite Hh. clear Hl Hh.
  induction l as [|x l IH]; [reflexivity|]. cbn [fold_right]. rewrite IH by (intros; apply H0; now right). rewrite (H0 x (or_introl eq_refl)). apply Rmax_left. lra.
Qed.
Lemma rmin_same c (l : list R) : l <> [] -> (forall x, In x l -> x = c) -> rmin l = c.
Proof.
  intros Hl H0. unfold rmin. assert (Hh : hd 0%R l = c) by (destruct l; [congruence|cbn; apply H0; now left]). rewrite Hh. clear Hl Hh.
  induction l as [|x l IH]; [reflexivity|]. cbn [fold_right]. rewrite IH by (intros; apply H0; now right). rewrite (H0 x (or_introl eq_refl)). apply Rmin_left. lra.
Qed.
Lemma still_ema_of s c n (ys : list (@F XR)) : 0 <= s -> ema_of s (repeat (Fin c : @F XR) n) ys -> ys = repeat (Fin c : @F XR) n.
Proof.
  intros Hs (Ly & H0 & HS). rewrite repeat_length in Ly.
  assert (A : forall i y, nth_error ys i = Some y -> y = (Fin c : @F XR)).
  { induction i as [|i IH]; intros y Hy.
    - rewrite H0 in Hy. apply nth_error_In, repeat_spec in Hy. exact Hy.
    - assert (Hi : (S i < n)%nat) by (rewrite <- Ly; apply nth_error_Some; congruence). destruct (@some_at _ ys i ltac:(lia)) as (y' & Hy').
      rewrite (HS i (Fin c : @F XR) y y' (nth_error_repeat _ Hi) Hy Hy'), (IH y' Hy'). cbn. assert (0 < IZR (s + 1))%R by (apply (IZR_lt 0); lia).
      destruct (Reqb_spec (IZR (s + 1)) 0); [lra|]. apply (f_equal Fin). rewrite minus_IZR, plus_IZR in *. field. lra. }
  pose proof (@all_same (@F XR) ys (Fin c) n 0 Ly) as B. rewrite Nat.sub_0_r in B. apply B. intros i y _. apply A.
Qed.
Theorem C99_Projection (p : nat) s c kl : (2 <= p)%nat -> 0 <= s -> flat_market c kl -> len kl <= 2 ^ 53 ->
  exists r, rows_of (N := XR) I_Projection (mkProjP (Z.of_nat p) s) kl = Ok r /\
    column (fun v => pjPo v) r = repeat zero (length kl) /\ column (fun v => pjSpo v) r = repeat zero (length kl).
Proof.
  intros Hp Hs Hf Hn.
  destruct (@C84_exact p s kl (repeat c (length kl)) (repeat c (length kl)) (repeat c (length kl)) Hp Hn (@fl_fins c kl (fun k => cHigh k) (fl_high Hf)) (@fl_fins c kl (fun k => cLow k) (fl_low Hf)) (@fl_fins c kl (fun k => cClose k) (fl_close Hf)))
    as (r & up & down & E & Lr & LS & Q & EM).
  exists r. split; [exact E|].
  assert (F0 : forall i b m, least_squares b m (window (points (repeat c (length kl))) i p) -> m = 0%R).
  { intros i b m HL. apply (@fit_flat b m _ c HL). intros q Hq. apply window_In, points_snd, repeat_spec in Hq. exact Hq. }
  assert (P0 : column (fun v => pjPo v) r = repeat zero (length kl)).
  { pose proof (@all_same (@F XR) (column (fun v => pjPo v) r) zero (length kl) 0) as A. rewrite Nat.sub_0_r in A. apply A; [unfold column; now rewrite map_length|]. clear A.
    intros i y _ Hy. destruct (@col_some _ _ r i y Hy) as (v & Hv & ->). assert (Hi : (i < length kl)%nat) by (rewrite <- Lr; apply nth_error_Some; congruence).
    specialize (Q i v Hv). cbn zeta in Q. rewrite Q. destruct (Nat.ltb_spec i p) as [|Hip]; [reflexivity|].
    assert (V0 : forall (g : nat -> R) x, (forall j, (1 <= j < length kl)%nat -> g j = 0%R) -> In x (map (fun j => (nth j (repeat c (length kl)) 0 + g j * INR j)%R) (last_bars i p)) -> x = c).
    { intros g x Hg Hx. apply in_map_iff in Hx as (j & <- & Hj). unfold last_bars in Hj. apply in_seq in Hj. rewrite Hg by lia. rewrite nth_repeat_lt by lia. lra. }
    assert (N0 : forall (g : nat -> R), map (fun j => (nth j (repeat c (length kl)) 0 + g j * INR j)%R) (last_bars i p) <> []).
    { intros g Hg. apply map_eq_nil in Hg. unfold last_bars in Hg. destruct p; [lia|discriminate]. }
    rewrite (@rmax_same c) by first [apply N0|intros x Hx; apply (V0 up); [intros j Hj; destruct (LS j Hj) as [(b & Hb) _]; now apply F0 in Hb|exact Hx]].
    rewrite (@rmin_same c) by first [apply N0|intros x Hx; apply (V0 down); [intros j Hj; destruct (LS j Hj) as [_ (b & Hb)]; now apply F0 in Hb|exact Hx]].
    destruct (Reqb_spec c c); [reflexivity|contradiction]. }
  split; [exact P0|].
  rewrite P0 in EM. exact (@still_ema_of s 0%R _ _ Hs EM).
Qed.
Print Assumptions C99_Projection.
Theorem C99_Projection_signals (p : nat) s c kl : (2 <= p)%nat -> 0 <= s -> flat_market c kl -> len kl <= 2 ^ 53 ->
  exists d, sides_of (N := XR) I_Projection (mkProjP (Z.of_nat p) s) kl = Ok d /\ length d = length kl /\ skipn 1 d = repeat Hold (length kl - 1).
Proof.
  intros Hp Hs Hf Hn. destruct (C99_Projection Hp Hs Hf Hn) as (r & E & P & S).
  assert (Lr : length r = length kl) by (apply (f_equal (@length _)) in P; unfold column in P; now rewrite map_length, repeat_length in P).
  destruct (@sides_total XR I_Projection ltac:(unfold all_indicators, append_style, make_style; cbn; tauto) _ (mkProjP (Z.of_nat p) s) kl r eq_refl E Lr) as (d & Ed).
  assert (E' : sides_of (N := XR) I_Projection (mkProjP (Z.of_nat p) s) kl = Ok d).
  { unfold sides_of, AnalysisSide. cbn [Sides I_Projection]. fold (rows_of (N := XR) I_Projection (mkProjP (Z.of_nat p) s) kl). rewrite E. cbn [bind]. cbn [Sides I_Projection] in Ed. rewrite Ed. reflexivity. }
  exists d. split; [exact E'|]. assert (Ld : length d = length kl).
  { eapply (@C40_sides XR I_Projection); [|split; [exact XR_count|exact Hn]|exact E']. unfold append_style, make_style; cbn; tauto. }
  split; [exact Ld|]. apply all_same; [exact Ld|]. intros i x Hi Hx. assert (Hl : (i < length kl)%nat) by (rewrite <- Ld; apply nth_error_Some; congruence).
  destruct (@some_at _ kl i Hl) as (k & K1), (@some_at _ kl (pred i) ltac:(lia)) as (k' & K2), (@some_at _ r i ltac:(lia)) as (v & V1), (@some_at _ r (pred i) ltac:(lia)) as (w & V2).
  destruct (@C64_Projection XR (mkProjP (Z.of_nat p) s) kl r d E E' i k k' v w x ltac:(lia) ltac:(lia) K1 K2 V1 V2 Hx) as (_ & _ & S3).
  assert (G : forall f : ProjV (N := XR) -> @F XR, column f r = repeat zero (length kl) -> f (rVal v) = zero).
  { intros f Hc. assert (X : nth_error (column f r) i = Some (f (rVal v))) by (unfold column; rewrite nth_error_map; cbn in V1 |- *; now rewrite V1). rewrite Hc in X. now apply nth_error_In, repeat_spec in X. }
  pose proof (G _ P) as A1. pose proof (G _ S) as A2. cbn beta in A1, A2.
  apply S3; rewrite A1, A2, xr_lt, Rltb_00; discriminate.
Qed.
Print Assumptions C99_Projection_signals.

(** ** Indicators of volume, when the volume does not change either *)
Definition steady (kl : kline) : Prop := exists v, (0 <= v)%R /\ Forall (fun k => cVolume k = (Fin v : @F XR)) kl.
Theorem C99_VolumeOscillator p kl : 0 <= fsFast p -> 0 <= fsSlow p -> steady kl ->
  exists r, rows_of (N := XR) I_VOsc p kl = Ok r /\ column (fun v => v) r = repeat zero (length kl).
Proof.
  intros H1 H2 (v & Hv & HV). rewrite VOsc_T. eexists. split; [reflexivity|]. unfold column. rewrite tabmap, <- tab_const. apply tab_ext. intros i Hi. cbn [rVal].
  assert (S : still (length kl) (volF kl) v).
  { intros j Hj. unfold volF. rewrite Forall_forall in HV. rewrite HV by (unfold cn; now apply nth_In). reflexivity. }
  unfold voscF. rewrite (still_ema H1 S), (still_ema H2 S) by exact Hi. rewrite same_0, clean_0. cbn. apply (f_equal Fin). lra.
Qed.
Print Assumptions C99_VolumeOscillator.
Lemma fl_bars c kl : flat_market c kl -> exists bs, Forall2 is_bar kl bs /\ Forall (fun b => bH b = c /\ bL b = c /\ bC b = c) bs.
Proof.
  unfold flat_market. induction 1 as [|k kl Hk _ (bs & B1 & B2)]; [exists []; split; constructor|]. destruct Hk as (K1 & K2 & K3 & K4 & v & _ & K5). exists (mkBar c c c c v :: bs).
  split; constructor; try assumption; [unfold is_bar; cbn; auto|cbn; auto].
Qed.
Theorem C99_MFI p c kl : 1 <= p -> (0 < c)%R -> flat_market c kl -> steady kl ->
  exists r, rows_of (N := XR) I_MFI p kl = Ok r /\ column (fun v => v) r = repeat zero (length kl).
Proof.
  intros Hp Hc Hf (v & Hv & HV). destruct (fl_bars Hf) as (bs & B1 & B2). destruct (C55_exact Hp B1) as (r & E & Lr & Q). exists r. split; [exact E|].
  assert (R0 : forall x, In x (map raw bs) -> x = (c * v)%R).
  { intros x Hx. apply in_map_iff in Hx as (b & <- & Hb). assert (V : bV b = v).
    { clear - B1 HV Hb. induction B1 as [|k b' kl bs K _ IH]; [contradiction|]. inversion HV as [|? ? V1 V2]; subst. destruct Hb as [->|Hb]; [|now apply IH]. destruct K as (_ & _ & _ & _ & K). rewrite V1 in K. now injection K. }
    rewrite Forall_forall in B2. unfold raw. destruct (B2 b Hb) as (-> & -> & ->). rewrite V. field. }
  assert (F0 : forall prev l, (prev <= c * v)%R -> (forall x, In x l -> x = (c * v)%R) -> forall y, In y (flows prev l) -> y = (c * v)%R).
  { intros prev l. revert prev. induction l as [|x l IH]; intros prev H1 H2 y Hy; [contradiction|]. cbn [flows] in Hy. pose proof (H2 x (or_introl eq_refl)) as Ex. destruct Hy as [<-|Hy].
    - destruct (Rle_dec prev x); [exact Ex|]. exfalso. lra.
    - apply (IH x); [lra|intros; apply H2; now right|exact Hy]. }
  pose proof (@all_same (@F XR) (column (fun v : @F XR => v) r) zero (length kl) 0) as A. rewrite Nat.sub_0_r in A. apply A; [unfold column; now rewrite map_length|]. clear A.
  intros i y _ Hy. destruct (@col_some (@F XR) _ r i y Hy) as (w & Hw & ->). destruct (Q i w Hw) as (_ & Q0 & _). apply Q0. unfold losses.
  assert (P : (0 <= c * v)%R) by (apply Rmult_le_pos; lra).
  assert (W : forall x, In x (window (flows 0 (map raw bs)) i (Z.to_nat p)) -> x = (c * v)%R) by (intros x Hx; apply window_In in Hx; exact (F0 0%R _ P R0 x Hx)).
  clear Q0.   induction (window (flows 0 (map raw bs)) i (Z.to_nat p)) as [|x l IH]; [reflexivity|]. cbn [map]. rewrite Rsum_cons, IH by (intros; apply W; now right). rewrite (W x (or_introl eq_refl)). rewrite Rmax_right by lra. lra.
Qed.
Print Assumptions C99_MFI.
(** ... but the money flow of a candle counts as outflow when less money moved than before, whatever the price did:
    at a standing price the index buys when the volume falls twice *)
Definition volumes (c : R) (vs : list R) : kline := map (fun v => mkCandle (N := XR) (Fin 0) 0 (Fin c) (Fin c) (Fin c) (Fin c) (Fin v) (Fin 0) false 60) vs.
Lemma volumes_flat c vs : (forall v, In v vs -> (0 <= v)%R) -> flat_market c (volumes c vs).
Proof. intros Hv. apply Forall_forall. intros k Hk. apply in_map_iff in Hk as (v & <- & Hin). cbn. repeat split; try reflexivity. exists v. split; [now apply Hv|reflexivity]. Qed.
Theorem C99_MFI_volume_refuted c : (0 < c)%R -> let kl := volumes c [4; 8; 4; 2]%R in
  flat_market c kl /\ traded kl /\ exists s, sides_of (N := XR) I_MFI 2 kl = Ok s /\ nth_error s 3 = Some Buy.
Proof.
  intros Hc kl. assert (P4 : forall v, In v [4; 8; 4; 2]%R -> (0 < v)%R) by (cbn; intros v Hv; repeat destruct Hv as [<-|Hv]; try contradiction; lra).
  assert (Hf : flat_market c kl) by (apply volumes_flat; intros v Hv; specialize (P4 v Hv); lra).
  split; [exact Hf|]. split; [apply Forall_forall; intros k Hk; apply in_map_iff in Hk as (v & <- & Hin); exists v; split; [now apply P4|reflexivity]|].
  pose (bs := map (mkBar c c c c) [4; 8; 4; 2]%R). assert (B : Forall2 is_bar kl bs) by (unfold kl, bs, volumes; cbn; repeat constructor).
  destruct (@C55_exact 2 kl bs ltac:(lia) B) as (r & E & Lr & Q).
  destruct (@both_sides I_MFI 2 _ kl r ltac:(in_all) ltac:(no_proj) eq_refl E Lr) as (s & Es & Ls). exists s. split; [exact Es|].
  assert (Fl : flows 0 (map raw bs) = [c * 4; c * 8; - (c * 4); - (c * 2)]%R).
  { unfold bs, raw. cbn. repeat destruct (Rle_dec _ _); try lra. repeat f_equal; field. }
  destruct (@some_at _ r 2 ltac:(rewrite Lr; cbn; lia)) as (v2 & V2), (@some_at _ r 3 ltac:(rewrite Lr; cbn; lia)) as (v3 & V3), (@some_at _ s 3 ltac:(rewrite Ls; cbn; lia)) as (x & Hx).
  rewrite Fl in Q. pose proof (Q 2%nat v2 V2) as (Q2 & _). pose proof (Q 3%nat v3 V3) as (Q3 & _). change (window [(c * 4)%R; (c * 8)%R; (- (c * 4))%R; (- (c * 2))%R] 2 (Z.to_nat 2)) with [(c * 8)%R; (- (c * 4))%R] in Q2.
  change (window [(c * 4)%R; (c * 8)%R; (- (c * 4))%R; (- (c * 2))%R] 3 (Z.to_nat 2)) with [(- (c * 4))%R; (- (c * 2))%R] in Q3. clear Q.
  assert (G2 : gains [(c * 8)%R; (- (c * 4))%R] = (c * 8)%R) by (unfold gains; cbn [map]; rewrite !Rsum_cons, Rmax_left, Rmax_right by lra; unfold Rsum; cbn; lra).
  assert (L2 : losses [(c * 8)%R; (- (c * 4))%R] = (c * 4)%R) by (unfold losses; cbn [map]; rewrite !Rsum_cons, Rmax_right, Rmax_left by lra; unfold Rsum; cbn; lra).
  assert (G3 : gains [(- (c * 4))%R; (- (c * 2))%R] = 0%R) by (unfold gains; cbn [map]; rewrite !Rsum_cons, !Rmax_right by lra; unfold Rsum; cbn; lra).
  assert (L3 : losses [(- (c * 4))%R; (- (c * 2))%R] = (c * 6)%R) by (unfold losses; cbn [map]; rewrite !Rsum_cons, !Rmax_left by lra; unfold Rsum; cbn; lra).
  rewrite G2, L2 in Q2. rewrite G3, L3 in Q3. specialize (Q2 ltac:(lra)). specialize (Q3 ltac:(lra)).
  destruct (@C64_MFI XR 2 kl r s E Es 3%nat _ _ v3 v2 x ltac:(lia) ltac:(lia) eq_refl eq_refl V3 V2 Hx) as (S1 & _).
  rewrite Hx. apply (f_equal Some). apply S1. cbn in Q2, Q3. cbn beta. split.
  - assert (X : (Fin (100 * 0 / (0 + c * 6)) : @F XR) <~ (Fin 10 : @F XR) = true).
    { rewrite xr_lt. destruct (Rltb_spec (100 * 0 / (0 + c * 6)) 10) as [|W]; [reflexivity|]. exfalso. replace (100 * 0 / (0 + c * 6))%R with 0%R in W by (field; lra). lra. }
    rewrite <- Q3 in X. exact X.
  - assert (X : (Fin 10 : @F XR) <~ (Fin (100 * (c * 8) / (c * 8 + c * 4)) : @F XR) = true).
    { rewrite xr_lt. destruct (Rltb_spec 10 (100 * (c * 8) / (c * 8 + c * 4))) as [|W]; [reflexivity|]. exfalso. replace (100 * (c * 8) / (c * 8 + c * 4))%R with (200 / 3)%R in W by (field; lra). lra. }
    rewrite <- Q2 in X. exact X.
Qed.
Print Assumptions C99_MFI_volume_refuted.

(** ** Stochastic heat: all 28 stochastics are nought, and so are their averages *)
Lemma still_sma_of p n c (ys : list (@F XR)) : 1 <= p -> Sma (N := XR) p (repeat (Fin c : @F XR) n) = Ok ys -> ys = repeat (Fin c : @F XR) n.
Proof.
  intros Hp. rewrite <- tab_const, Sma_T by lia. intros E. injection E as <-. apply tab_ext. intros i Hi. refine (still_sma (n := n) _ _ Hi); [lia|]. intros j Hj. reflexivity.
Qed.
Lemma still_average kind p n c (ys : list (@F XR)) : kind = EMA_KIND \/ kind = SMA_KIND -> 1 <= p -> average_of kind p (repeat (Fin c : @F XR) n) ys -> ys = repeat (Fin c : @F XR) n.
Proof. intros [-> | ->] Hp; unfold average_of; cbn [Z.eqb EMA_KIND SMA_KIND Pos.eqb]; intros Q; [apply (@still_ema_of p c n ys ltac:(lia) Q)|exact (@still_sma_of p n c ys Hp Q)]. Qed.
Theorem C99_StochasticHeat p : 1 <= hInc p -> hPlot p <> 0 -> 1 <= hFast p -> 1 <= hSlow p -> hMA p = EMA_KIND \/ hMA p = SMA_KIND ->
  rests_at I_StochasticHeat p (fun v => hvFast v) nought 1 0 /\ rests_at I_StochasticHeat p (fun v => hvSlow v) nought 1 0.
Proof.
  intros H1 H2 H3 H4 HK. enough (A : forall c kl, (0 < c)%R -> flat_market c kl -> (1 <= length kl)%nat ->
    exists r, rows_of (N := XR) I_StochasticHeat p kl = Ok r /\ length r = length kl /\ column (fun v => hvFast v) r = repeat zero (length kl) /\ column (fun v => hvSlow v) r = repeat zero (length kl)).
  { split; intros c kl Hc Hf Hn; destruct (A c kl Hc Hf Hn) as (r & E & Lr & A1 & A2); exists r; (split; [exact E|]); (split; [exact Lr|]); rewrite ?A1, ?A2; cbn [skipn]; now rewrite Nat.sub_0_r. }
  intros c kl Hc Hf Hn.
  assert (HB : Forall in_bar kl).
  { unfold flat_market in Hf. rewrite Forall_forall in *. intros k Hk. destruct (Hf k Hk) as (_ & B1 & B2 & B3 & _). exists c, c, c. repeat split; try assumption; lra. }
  destruct (@C82_range p kl HB H1 H2 H3 H4 ltac:(tauto)) as (r & E & Lr & _). exists r. split; [exact E|]. split; [exact Lr|].
  destruct (@C82_formula XR p kl r ltac:(destruct kl; [cbn in Hn; lia|discriminate]) E) as (lines & L28 & HL & _ & HF & HS).
  assert (Z0 : forall l, In l lines -> l = repeat zero (length kl)).
  { intros l Hl. apply In_nth_error in Hl as (k & Hk). destruct (HL k l Hk) as (Ll & pos & d & Ep & Q).
    assert (P0 : pos = repeat zero (length kl)).
    { rewrite (@fl_fins c kl (fun k => cClose k) (fl_close Hf)), (@fl_fins c kl (fun k => cHigh k) (fl_high Hf)), (@fl_fins c kl (fun k => cLow k) (fl_low Hf)) in Ep.
      destruct (@C25_Stochastic (repeat c (length kl)) (repeat c (length kl)) (repeat c (length kl)) (Z.to_nat ((Z.of_nat k + 1) * hInc p)) ltac:(nia) eq_refl eq_refl) as (kk & dd & Es & HD).
      { intros i Hi. lra. }
      rewrite Z2Nat.id in Es by nia. rewrite Ep in Es. injection Es as -> _. rewrite repeat_length in *. rewrite <- tab_const. apply tab_ext. intros i Hi.
      destruct (HD i Hi) as (_ & _ & H0 & _). apply (f_equal Fin). apply H0. rewrite (@rmax_same c), (@rmin_same c); try reflexivity; try (intros x Hx; apply window_In, repeat_spec in Hx; exact Hx); apply window_ne; rewrite ?repeat_length; nia. }
    rewrite P0 in Q. unfold line_of in Q. assert (K : (hMA p =? EMA_KIND) || (hMA p =? SMA_KIND) || (hMA p =? WMA_KIND) = true) by (destruct HK as [-> | ->]; reflexivity). rewrite K in Q. exact (@still_average _ _ _ 0 _ HK H3 Q). }
  assert (A1 : column (fun v => hvFast v) r = repeat zero (length kl)).
  { pose proof (@all_same (@F XR) (column (fun v => hvFast v) r) zero (length kl) 0) as A. rewrite Nat.sub_0_r in A. apply A; [unfold column; now rewrite map_length|]. clear A.
    intros i y _ Hy. destruct (@col_some _ _ r i y Hy) as (v & Hv & ->). assert (Hi : (i < length kl)%nat) by (rewrite <- Lr; apply nth_error_Some; congruence).
    rewrite (HF i v (repeat zero 28) Hv).
    - cbn [repeat PropInd13.total fold_left]. assert (HP : (IZR (hPlot p) <> 0)%R) by now apply not_0_IZR.
      assert (S0 : zero +~ zero = zero) by (cbn; apply (f_equal Fin); lra). rewrite !S0, !xr_ofZ, xr_div by exact HP. rewrite xr_div by lra. rewrite xr_mul. apply (f_equal Fin). field. exact HP.
    - rewrite <- L28. clear - Z0 Hi. induction lines as [|l ls IH]; [reflexivity|]. cbn [map length repeat]. rewrite IH by (intros; apply Z0; now right). rewrite (Z0 l (or_introl eq_refl)), nth_error_repeat by exact Hi. reflexivity. }
  split; [exact A1|]. rewrite A1 in HS. exact (@still_average _ _ _ 0 _ HK H4 HS).
Qed.
Print Assumptions C99_StochasticHeat.
Theorem C99_StochasticHeat_signals p : 1 <= hInc p -> hPlot p <> 0 -> 1 <= hFast p -> 1 <= hSlow p -> hMA p = EMA_KIND \/ hMA p = SMA_KIND -> stays_out I_StochasticHeat p 1 1.
Proof.
  intros H1 H2 H3 H4 HK. destruct (C99_StochasticHeat p H1 H2 H3 H4 HK) as [M1 M2]. calm (@C64_StochasticHeat XR p) M1. val2 M1. val2 M2. done.
Qed.
Print Assumptions C99_StochasticHeat_signals.

(** a flat market with steady volume, and the parameters NewDefault gives *)
Example C99_hyp_steady : steady (quiet 100 5 40) /\ flat_market 100 (quiet 100 5 40) /\
  (1 <= axPeriod (mkAdxP 14 14) /\ 1 <= axLen (mkAdxP 14 14)) /\ 2 <= lrLength (mkLrcP 7 11 true).
Proof.
  split; [exists 5%R; split; [lra|]; apply Forall_forall; intros k Hk; apply repeat_spec in Hk; subst; reflexivity|]. split; [apply quiet_flat; lra|cbn; lia].
Qed.
