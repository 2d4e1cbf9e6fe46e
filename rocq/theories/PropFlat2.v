(** * PropFlat2: property C99, continued: there is nothing to buy or to sell on in a flat market. *)
From Coq Require Import Reals Lra ZArith Lia Bool List PeanoNat.
From Verif Require Import Base Num XReal Order OrderMore FloatLaws FloatOrder FloatBounds SpecNum B64 Lits Containers Ta TaTools TaAvg TaRange TaStat TaOrd SpecTa Sides Klines RSum XrMore
  IndBase IndTrend IndChannel IndOsc IndVolume IndAll IndTools IndForms IndForms2 IndForms3 IndForms4 IndForms5 IndFormsSpec IndMachines IndBounds IndBounds2 IndExact TaDev TaReg SpecInd SpecInd2 SpecBar SpecMemory SpecFlat
  IndLife CrashSides PropInd1 PropInd2 PropInd3 PropInd5 PropInd6 PropInd7 PropInd8 PropInd9 PropInd11 PropInd12 PropBands PropMemory ShiftTools PropMirror3 Crash CrashInd PropFlat.
Import ListNotations.
Set Implicit Arguments.
Open Scope Z_scope.
Local Notation C kl := (fun i => cClose (cn kl i)).
Local Notation rows kl g := (Ok (tab (length kl) (fun i => mkRow (tm kl i) (g i)))).
Local Notation kline := (list (Candle (N := XR))).
Local Notation the_price := (fun c : R => c).

Lemma some_at A (l : list A) j : (j < length l)%nat -> exists a, nth_error l j = Some a.
Proof. intros Hj. destruct (nth_error l j) eqn:Q; [eauto|apply nth_error_None in Q; lia]. Qed.
Lemma rest_val (I : Indicator (N := XR)) (p : Param I) (f : Val I -> @F XR) x need k c kl r i v : rests_at I p f x need k -> (0 < c)%R -> flat_market c kl -> (need <= length kl)%nat ->
  rows_of I p kl = Ok r -> (k <= i)%nat -> nth_error r i = Some v -> f (rVal v) = Fin (x c).
Proof.
  intros HM Hc Hf Hn E Hi Hv. destruct (HM c kl Hc Hf Hn) as (r' & E' & Lr & Q). rewrite E in E'. injection E' as <-.
  assert (X : nth_error (skipn k (column f r)) (i - k) = Some (f (rVal v))) by (rewrite nth_error_skipn; unfold column; rewrite nth_error_map; replace (k + (i - k))%nat with i by lia; now rewrite Hv).
  rewrite Q in X. apply nth_error_In in X. now apply repeat_spec in X.
Qed.
Lemma stays (I : Indicator (N := XR)) (p : Param I) f need from B S : In I append_style \/ In I make_style -> (forall n, counts I n) -> Sides I = Some f -> follows I p from B S ->
  (forall c kl, (0 < c)%R -> flat_market c kl -> (need <= length kl)%nat -> exists r, rows_of I p kl = Ok r /\ length r = length kl /\
     forall i v w k k', (1 <= i)%nat -> nth_error r i = Some v -> nth_error r (pred i) = Some w -> cClose k = (Fin c : @F XR) -> cClose k' = (Fin c : @F XR) -> ~ B k k' (rVal v) (rVal w) /\ ~ S k k' (rVal v) (rVal w)) ->
  stays_out I p need (Nat.max 1 (Z.to_nat from)).
Proof.
  intros HI Hc Hs HF HR c kl Hc0 Hf Hn. destruct (HR c kl Hc0 Hf Hn) as (r & E & Lr & HN). destruct (@both_sides I p f kl r HI Hc Hs E Lr) as (s & Es & Ls).
  exists s. split; [exact Es|]. split; [exact Ls|]. apply all_same; [exact Ls|]. intros i d Hi Hd.
  assert (Li : (i < length kl)%nat) by (rewrite <- Ls; apply nth_error_Some; congruence).
  destruct (@some_at _ kl i Li) as (k & K1), (@some_at _ kl (pred i) ltac:(lia)) as (k' & K2), (@some_at _ r i ltac:(lia)) as (v & V1), (@some_at _ r (pred i) ltac:(lia)) as (w & V2).
  assert (Q : forall j x, nth_error kl j = Some x -> cClose x = (Fin c : @F XR)).
  { intros j x Hx. unfold flat_market in Hf. rewrite Forall_forall in Hf. apply nth_error_In in Hx. now apply Hf. }
  destruct (HN i v w k k' ltac:(lia) V1 V2 (Q _ _ K1) (Q _ _ K2)) as [N1 N2].
  destruct (HF kl r s E Es i k k' v w d ltac:(lia) ltac:(lia) K1 K2 V1 V2 Hd) as (_ & _ & S3). exact (S3 N1 N2).
Qed.
Ltac nope := cbn; let X := fresh in intros X; repeat match goal with Y : _ /\ _ |- _ => destruct Y end; try discriminate; repeat match goal with Y : false = true |- _ => discriminate Y end; repeat match goal with Y : Rltb ?a ?b = true |- _ => destruct (Rltb_spec a b); [|discriminate Y]; clear Y end; lra.

Ltac val2 M := match goal with Hc : (0 < ?c)%R, Hf : flat_market ?c ?kl, Hn : (_ <= length ?kl)%nat, E : rows_of _ _ ?kl = Ok ?r, Hv : nth_error ?r ?i = Some ?v, Hw : nth_error ?r (pred ?i) = Some ?w |- _ =>
  let V := fresh "V" in let W := fresh "W" in pose proof (rest_val M Hc Hf Hn E (Nat.le_0_l _) Hv) as V; pose proof (rest_val M Hc Hf Hn E (Nat.le_0_l _) Hw) as W; cbn beta in V, W end.
Ltac calm fol M := match goal with |- stays_out ?I ?p _ _ => eapply (@stays I p _ _ _ _ _ ltac:(in_all) ltac:(no_proj) eq_refl fol) end; let c := fresh "c" in let kl := fresh "kl" in intros c kl Hc Hf Hn; destruct (M c kl Hc Hf Hn) as (r & E & Lr & _);
  exists r; split; [exact E|]; split; [exact Lr|]; intros i v w k k' H0i Hv Hw Hk Hk'.
Ltac done_ := repeat match goal with V : _ = Fin _ |- _ => rewrite ?V; clear V end; nope.
Ltac done := cbn beta; split; done_.

Theorem C99_Rsi_signals (p : nat) : (2 <= p)%nat -> stays_out I_Rsi (Z.of_nat p) (S p) 1.
Proof. intros Hp. pose proof (C99_Rsi Hp) as M. calm (@C64_Rsi XR (Z.of_nat p)) M. val2 M. done. Qed.
Theorem C99_StochRsi_signals (p : StochRsiP) : 2 <= srRsi p -> 1 <= srStoch p -> 0 <= srK p -> 0 <= srD p -> stays_out I_StochRsi p (S (Z.to_nat (srRsi p))) 1.
Proof. intros H1 H2 H3 H4. destruct (C99_StochRsi p H1 H2 H3 H4) as [M M']. calm (@C64_StochRsi XR p) M. val2 M. val2 M'. done. Qed.
Theorem C99_Stoch_signals p : 1 <= p -> stays_out I_Stoch p 0 1.
Proof. intros Hp. destruct (C99_Stoch Hp) as [M M']. calm (@C64_Stoch XR p) M. val2 M. val2 M'. done. Qed.
Theorem C99_Macd_signals p : 0 <= mShort p -> 0 <= mLong p -> 0 <= mSignal p -> stays_out I_Macd p 0 1.
Proof. intros H1 H2 H3. destruct (C99_Macd p H1 H2 H3) as (M & M' & _). calm (@C64_Macd XR p) M. val2 M. val2 M'. done. Qed.
Theorem C99_APO_signals p : 0 <= fsFast p -> 0 <= fsSlow p -> stays_out I_APO p 0 1.
Proof. intros H1 H2. pose proof (C99_APO p H1 H2) as M. calm (@C64_APO XR p) M. val2 M. done. Qed.
Theorem C99_AO_signals : stays_out I_AO tt 0 1.
Proof. pose proof C99_AO as M. calm (@C64_AO XR tt) M. val2 M. done. Qed.
Theorem C99_Chaikin_signals p : 0 <= fsFast p -> 0 <= fsSlow p -> stays_out I_Chaikin p 0 1.
Proof. intros H1 H2. destruct (C99_Chaikin p H1 H2) as [M _]. calm (@C64_Chaikin XR p) M. val2 M. done. Qed.
Theorem C99_PPO_signals p : 0 <= poFast p -> 0 <= poSlow p -> 0 <= poSignal p -> stays_out I_PPO p 0 1.
Proof. intros H1 H2 H3. destruct (C99_PPO p H1 H2 H3) as (M & M' & _). calm (@C64_PPO XR p) M. val2 M. val2 M'. done. Qed.
Theorem C99_Boll_signals p : 1 <= blN p -> stays_out I_Boll p 0 1.
Proof. intros Hp. destruct (C99_Boll p Hp) as (M & _ & M' & _). calm (@C64_Boll XR p) M. val2 M. val2 M'. done. Qed.
Theorem C99_Donchian_signals p : 1 <= p -> stays_out I_Donchian p 0 1.
Proof. intros Hp. destruct (C99_Donchian Hp) as (_ & M & _). calm (@C64_Donchian XR p) M. val2 M. done. Qed.
Theorem C99_Keltner_signals p : 1 <= p -> stays_out I_Keltner p 0 1.
Proof. intros Hp. destruct (C99_Keltner Hp) as (_ & M & _). calm (@C64_Keltner XR p) M. val2 M. done. Qed.
Theorem C99_Ichimoku_signals p : 1 <= icConv p -> 1 <= icSpanB p -> 0 <= icLag p -> stays_out I_Ichimoku p 0 (Z.to_nat (icConv p)).
Proof.
  intros H1 H2 H3. destruct (C99_Ichimoku p H1 H2 H3) as (_ & _ & M & _). assert (K : stays_out I_Ichimoku p 0 (Nat.max 1 (Z.to_nat (icConv p)))) by (calm (@C64_Ichimoku XR p) M; val2 M; done).
  now rewrite Nat.max_r in K by lia.
Qed.
Lemma col_vals (r : list (row (@F XR))) n g : rmap (column (fun v : @F XR => v)) (Ok r) = Ok (tab n g) -> length r = n /\ forall i v, nth_error r i = Some v -> (i < n)%nat /\ rVal v = g i.
Proof.
  intros E. apply (f_equal (fun x => match x with Ok l => l | Panic => [] end)) in E. cbn [rmap] in E. assert (Lr : length r = n) by (rewrite <- (tab_length n g), <- E; unfold column; now rewrite map_length).
  split; [exact Lr|]. intros i v Hv. assert (Q : nth_error (column (fun v : @F XR => v) r) i = Some (rVal v)) by (unfold column; rewrite nth_error_map; now rewrite Hv).
  rewrite E in Q. now apply tab_some in Q.
Qed.
(** the commodity channel index of a flat market is not a number, so it crosses no level; nor does Williams' percent range *)
Theorem C99_Cci_signals (p : nat) : (1 <= p)%nat -> stays_out I_Cci (mkCciP (Z.of_nat p) (Z.of_nat p)) 0 1 /\ stays_out I_AiCoinCCI (Z.of_nat p) 0 1.
Proof.
  intros Hp.
  assert (X : forall c kl, flat_market c kl -> (exists r, rows_of (N := XR) I_Cci (mkCciP (Z.of_nat p) (Z.of_nat p)) kl = Ok r /\ length r = length kl /\ forall i v, nth_error r i = Some v -> rVal v = (Fin 0 : @F XR) \/ rVal v = (NaN : @F XR)) /\
    (exists r, rows_of (N := XR) I_AiCoinCCI (Z.of_nat p) kl = Ok r /\ length r = length kl /\ forall i v, nth_error r i = Some v -> rVal v = (Fin 0 : @F XR))).
  { intros c kl Hf. set (cs := repeat c (length kl)).
    assert (R1 : map (fun c => cClose c) kl = fins cs) by (rewrite (@fl_map c kl (fun c => cClose c) (fl_close Hf)); unfold cs, fins; now rewrite map_repeat).
    assert (R2 : map (typical_price (N := XR)) kl = fins cs).
    { assert (S : still (length kl) (fun i => typical_price (N := XR) (cn kl i)) c).
      { intros i Hi. unfold typical_price. destruct (fl_at Hf Hi) as (_ & -> & -> & -> & _). cbn. destruct (Reqb_spec 3 0); [lra|]. apply (f_equal Fin). lra. }
      rewrite (@fl_map c kl _ S). unfold cs, fins. now rewrite map_repeat. }
    assert (MD : forall i, (i < length kl)%nat -> Reqb (mad (window cs i p)) 0 = true).
    { intros i Hi. assert (W : forall x, In x (window cs i p) -> x = c) by (intros x Hx; apply window_In in Hx; unfold cs in Hx; now apply repeat_spec in Hx).
      assert (NE : window cs i p <> []) by (intros X0; assert (K : In c (window cs i p)) by (apply in_window; [exact Hp|unfold cs; now apply nth_error_repeat]); rewrite X0 in K; destruct K).
      assert (ME : mean (window cs i p) = c) by (pose proof (@mean_bounds (window cs i p) c c NE ltac:(intros x Hx; rewrite (W x Hx); lra)); lra).
      assert (Z0 : mad (window cs i p) = 0%R).
      { unfold mad. rewrite ME. pose proof (@mean_bounds (map (fun x => Rabs (x - c)) (window cs i p)) 0 0) as B. destruct B as [B1 B2]; [intros X; apply map_eq_nil in X; contradiction| |lra].
        intros y Hy. apply in_map_iff in Hy as (x & <- & Hx). rewrite (W x Hx). replace (c - c)%R with 0%R by lra. rewrite Rabs_R0. lra. }
      rewrite Z0. apply Reqb_00. }
    destruct (@C79_exact p kl cs cs Hp R2 R1) as [E1 E2]. split.
    - destruct (rows_of (N := XR) I_Cci (mkCciP (Z.of_nat p) (Z.of_nat p)) kl) as [r|] eqn:E; [|discriminate E1]. destruct (@col_vals r _ _ E1) as [Lr Q].
      exists r. split; [reflexivity|]. split; [exact Lr|]. intros i v Hv. destruct (Q i v Hv) as [Hi V]. destruct (S i <? p)%nat; [now left|]. cbn zeta in V. rewrite (MD i Hi) in V. now right.
    - destruct (rows_of (N := XR) I_AiCoinCCI (Z.of_nat p) kl) as [r|] eqn:E; [|discriminate E2]. destruct (@col_vals r _ _ E2) as [Lr Q].
      exists r. split; [reflexivity|]. split; [exact Lr|]. intros i v Hv. destruct (Q i v Hv) as [Hi V]. destruct (S i <? p)%nat; [exact V|]. cbn zeta in V. now rewrite (MD i Hi) in V. }
  split.
  - eapply (@stays I_Cci _ _ _ _ _ _ ltac:(in_all) ltac:(no_proj) eq_refl (@C64_Cci XR (mkCciP (Z.of_nat p) (Z.of_nat p)))). intros c kl Hc Hf _. destruct (X c kl Hf) as [(r & E & Lr & Q) _].
    exists r. split; [exact E|]. split; [exact Lr|]. intros i v w k k' H0i Hv Hw _ _. cbn beta. destruct (Q _ _ Hv) as [V|V], (Q _ _ Hw) as [W|W]; rewrite V, W; split; nope.
  - eapply (@stays I_AiCoinCCI _ _ _ _ _ _ ltac:(in_all) ltac:(no_proj) eq_refl (@C64_AiCoinCCI XR (Z.of_nat p))). intros c kl Hc Hf _. destruct (X c kl Hf) as [_ (r & E & Lr & Q)].
    exists r. split; [exact E|]. split; [exact Lr|]. intros i v w k k' H0i Hv Hw _ _. cbn beta. pose proof (Q _ _ Hv) as V. pose proof (Q _ _ Hw) as W. rewrite V, W. split; nope.
Qed.

Theorem C99_EMAVegas_signals p : 0 <= vgP p -> 0 <= vgS1 p -> 0 <= vgS2 p -> 0 <= vgL1 p -> 0 <= vgL2 p -> stays_out I_EMAVegas p 0 11.
Proof.
  intros H1 H2 H3 H4 H5. destruct (C99_EMAVegas p H1 H2 H3 H4 H5) as (M & M' & _). intros c kl Hc Hf Hn. destruct (M c kl Hc Hf Hn) as (r & E & Lr & _).
  destruct (@both_sides I_EMAVegas p _ kl r ltac:(in_all) ltac:(no_proj) eq_refl E Lr) as (s & Es & Ls). exists s. split; [exact Es|]. split; [exact Ls|]. apply all_same; [exact Ls|]. intros i d Hi Hd.
  assert (Li : (i < length kl)%nat) by (rewrite <- Ls; apply nth_error_Some; congruence).
  destruct (@some_at _ kl i Li) as (k & K1), (@some_at _ r i ltac:(lia)) as (v & V1).
  assert (W1 : gV (@rVal (VegasV (N := XR)) v) = (Fin c : @F XR)) by exact (rest_val M Hc Hf Hn E (Nat.le_0_l _) V1). assert (W2 : gS1 (@rVal (VegasV (N := XR)) v) = (Fin c : @F XR)) by exact (rest_val M' Hc Hf Hn E (Nat.le_0_l _) V1).
  destruct (@C64_EMAVegas XR p kl r s i k v d E Es Hi K1 V1 Hd) as (_ & _ & S3). apply S3; rewrite W1, W2; nope.
Qed.
Theorem C99_Camarilla_signals p : 0 <= camEMA p -> stays_out I_Camarilla p 0 0.
Proof.
  intros H1. pose proof (C99_Camarilla p H1) as HA. rewrite Forall_forall in HA. assert (M : rests_at I_Camarilla p (fun v => caEMA v) the_price 0 0) by (apply HA; cbn; tauto).
  intros c kl Hc Hf Hn. destruct (M c kl Hc Hf Hn) as (r & E & Lr & _).
  destruct (@both_sides I_Camarilla p _ kl r ltac:(in_all) ltac:(no_proj) eq_refl E Lr) as (s & Es & Ls). exists s. split; [exact Es|]. split; [exact Ls|]. apply all_same; [exact Ls|]. intros i d Hi Hd.
  assert (Li : (i < length kl)%nat) by (rewrite <- Ls; apply nth_error_Some; congruence).
  destruct (@some_at _ kl i Li) as (k & K1), (@some_at _ r i ltac:(lia)) as (v & V1). assert (W1 : caEMA (@rVal (CamV (N := XR)) v) = (Fin c : @F XR)) by exact (rest_val M Hc Hf Hn E (Nat.le_0_l _) V1).
  assert (K : cClose k = (Fin c : @F XR)) by (unfold flat_market in Hf; rewrite Forall_forall in Hf; apply nth_error_In in K1; now apply Hf).
  destruct (@C64_Camarilla XR p kl r s E Es) as (days & _ & Q). destruct (Q i k v d K1 V1 Hd) as [[_ Y]|(j & x & n & y & _ & _ & _ & _ & _ & _ & _ & _ & S3)]; [exact Y|].
  apply S3; rewrite W1, K; nope.
Qed.

Theorem C99_TraderXO_signals p : 0 <= xFastP p -> 0 <= xSlowP p -> stays_out I_TraderXO p 0 0.
Proof.
  intros H1 H2 c kl Hc Hf Hn. set (g := fun i => mkXOV (emaF (xFastP p) (fun i => cClose (cn kl i)) i) (emaF (xSlowP p) (fun i => cClose (cn kl i)) i)).
  assert (X : forall i, (xSlow (g i) <~ xFast (g i)) = true -> (xFast (g i) <~ xSlow (g i)) = false) by (intros i; apply (lt_excl XR_ord)).
  exists (tab (length kl) (xo_side g)). split.
  { unfold sides_of, AnalysisSide. cbn [Sides I_TraderXO].
    match goal with |- context [GetData ?a ?b ?c ?d] => change (GetData a b c d) with (rows_of (N := XR) I_TraderXO p kl) end.
    rewrite TraderXO_T. cbn [bind]. rewrite (traderxo_T g X). reflexivity. }
  split; [apply tab_length|]. apply all_same; [apply tab_length|]. intros i d _ Hd. apply tab_some in Hd as [Hi ->]. destruct i as [|i]; [reflexivity|]. unfold xo_side. unfold g. cbn [xFast xSlow].
  rewrite (still_ema H1 (fl_close Hf) Hi), (still_ema H2 (fl_close Hf) Hi). cbn [flt XR]. unfold xlt. destruct (Rltb_spec c c); [lra|]. reflexivity.
Qed.

(** the average true range the trailing stops use *)
Lemma wilder_0 p t k : (forall i, (i <= p + k)%nat -> t i = 0%R) -> wilder p t k = 0%R.
Proof.
  intros Ht. induction k as [|k IH]; cbn [wilder].
  - rewrite (Ht p) by lia. assert (Z0 : sumf (fun j => t (S j)) (p - 1) = 0%R).
    { assert (G : forall n, (n <= p - 1)%nat -> sumf (fun j => t (S j)) n = 0%R) by (induction n as [|n IH]; intros Hn; cbn [sumf]; [reflexivity|rewrite IH, (Ht (S n)) by lia; lra]). apply G. lia. }
    rewrite Z0. unfold Rdiv. ring.
  - rewrite IH, (Ht (p + S k)%nat) by (intros; try apply Ht; lia). unfold Rdiv. ring.
Qed.
Lemma fl_Atr c kl p : flat_market c kl -> p < 2 \/ p < len kl -> exists a, Atr (N := XR) (map (fun c => cHigh c) kl) (map (fun c => cLow c) kl) (map (fun c => cClose c) kl) p = Ok a /\
  length a = length kl /\ forall i x, nth_error a i = Some x -> x = (Fin 0 : @F XR).
Proof.
  intros Hf Hp. set (cs := repeat c (length kl)). assert (Lc : length cs = length kl) by apply repeat_length.
  assert (T : forall i, (i < length kl)%nat -> tr_real cs cs cs i = 0%R).
  { intros i Hi. destruct i as [|i]; [reflexivity|]. cbn [tr_real]. assert (Q : forall j, (j < length kl)%nat -> nth j cs 0%R = c) by (intros j Hj; pose proof (@nth_In _ j cs 0%R ltac:(lia)) as K; now apply repeat_spec in K).
    rewrite !Q by lia. unfold true_range, Rmax. replace (c - c)%R with 0%R by lra. rewrite Rabs_R0. repeat destruct (Rle_dec _ _); lra. }
  assert (R : forall q, still (length kl) (fun i => q (cn kl i)) c -> map q kl = fins cs) by (intros q Hq; rewrite (@fl_map c kl q Hq); unfold cs, fins; now rewrite map_repeat).
  rewrite (R (fun c => cHigh c) (fl_high Hf)), (R (fun c => cLow c) (fl_low Hf)), (R (fun c => cClose c) (fl_close Hf)). destruct (Z.lt_ge_cases p 1) as [Hp1|Hp1]; [|destruct (Z.eq_dec p 1) as [->|Hne]].
  - rewrite Atr_low by exact Hp1. eexists. split; [reflexivity|]. rewrite repeat_length, fins_length. split; [exact Lc|]. intros i x Hx. apply nth_error_In in Hx. now apply repeat_spec in Hx.
  - rewrite Atr_one, TRange_exact by lia. eexists. split; [reflexivity|]. rewrite tab_length. split; [exact Lc|]. intros i x Hx. apply tab_some in Hx as [Hi ->]. apply (f_equal Fin). apply T. lia.
  - rewrite <- (Z2Nat.id p) by lia. unfold len in Hp. rewrite Atr_exact by lia. eexists. split; [reflexivity|]. rewrite tab_length. split; [exact Lc|]. intros i x Hx. apply tab_some in Hx as [Hi ->].
    destruct (Nat.ltb_spec i (Z.to_nat p)); [reflexivity|]. apply (f_equal Fin). apply wilder_0. intros j Hj. apply T. lia.
Qed.

(** the two trailing stops, and the entries they signal *)
Theorem C99_UTBot p : rests_at I_UTBot p (fun v => uValue v) the_price (if utAtr p <? 2 then 0 else S (Z.to_nat (utAtr p))) 1.
Proof.
  intros c kl Hc Hf Hn. assert (Hp : utAtr p < 2 \/ utAtr p < len kl) by (destruct (Z.ltb_spec (utAtr p) 2); [now left|right; unfold len; lia]).
  destruct (x_UTBot (N := XR) kl p) as [[B _]|(_ & r & E & Lr)]; [lia|]. exists r. split; [exact E|]. split; [exact Lr|].
  destruct (fl_Atr Hf Hp) as (a & Ea & La & Qa). destruct (@utbot_rows XR p kl r E) as (_ & Z0 & atr & Ea' & St). rewrite Ea in Ea'. injection Ea' as <-.
  apply (@col_all (UTV (N := XR))); [exact Lr|].
  assert (G : forall i (v : row (UTV (N := XR))), nth_error r i = Some v -> uValue (rVal v) = (Fin (match i with O => 0%R | S _ => c end) : @F XR)).
  { induction i as [|i IH]; intros v Hv; [exact (Z0 v Hv)|]. assert (Hi : (S i < length kl)%nat) by (rewrite <- Lr; apply nth_error_Some; congruence).
    destruct (@some_at _ r i ltac:(lia)) as (w & Hw). destruct (St i v w Hv Hw) as (_ & x & Hx & U). rewrite U. rewrite (Qa _ _ Hx), (IH w Hw), !(fl_close Hf) by lia. unfold ut_step.
    rewrite !xr_ofZ, !xr_mul, !xr_sub, !xr_add, !xr_lt. destruct i as [|i]; repeat (match goal with |- context [Rltb ?a ?b] => destruct (Rltb_spec a b); try lra end); cbn [andb]; rewrite ?xr_max, ?xr_min; apply (f_equal Fin); unfold Rmax, Rmin; repeat destruct (Rle_dec _ _); lra. }
  intros [|i] v Hi Hv; [lia|]. exact (G (S i) v Hv).
Qed.
Theorem C99_UTBot_signals p : stays_out I_UTBot p (if utAtr p <? 2 then 0 else S (Z.to_nat (utAtr p))) 1.
Proof.
  pose proof (C99_UTBot p) as M. apply (@stays I_UTBot p _ _ 1 _ _ ltac:(in_all) ltac:(no_proj) eq_refl (@C64_UTBot XR p)).
  intros c kl Hc Hf Hn. destruct (M c kl Hc Hf Hn) as (r & E & Lr & _). exists r. split; [exact E|]. split; [exact Lr|]. intros i v w k k' H0i Hv Hw Hk Hk'. cbn beta.
  assert (V : uValue (@rVal (UTV (N := XR)) v) = (Fin c : @F XR)) by exact (rest_val M Hc Hf Hn E H0i Hv). destruct (@utbot_rows XR p kl r E) as (_ & _ & atr & _ & St). destruct i as [|i]; [lia|].
  assert (Hi : (S i < length kl)%nat) by (rewrite <- Lr; apply nth_error_Some; congruence). destruct (St i v w Hv Hw) as [U _]. rewrite (fl_close Hf Hi) in U. change (uClose (@rVal (UTV (N := XR)) v) = (Fin c : @F XR)) in U. split; intros [X _]; change (@flt XR (uValue (@rVal (UTV (N := XR)) v)) (uClose (@rVal (UTV (N := XR)) v)) = true) in X || change (@flt XR (uClose (@rVal (UTV (N := XR)) v)) (uValue (@rVal (UTV (N := XR)) v)) = true) in X; rewrite U, V in X; revert X; nope.
Qed.
Lemma fl_st p c kl (r : list (row (STV (N := XR)))) : stChange p = true -> (0 < c)%R -> flat_market c kl -> stPeriod p < 2 \/ stPeriod p < len kl -> rows_of (N := XR) I_SuperTrend p kl = Ok r ->
  forall i (v : row (STV (N := XR))), nth_error r i = Some v -> sUp (rVal v) = (Fin (match i with O => 0%R | S _ => c end) : @F XR) /\ sDn (rVal v) = (Fin (match i with O => 0%R | S _ => c end) : @F XR).
Proof.
  intros Hch Hc Hf Hp E. destruct (@C89_SuperTrend XR p kl r E) as (a & Ea & Lr & Z0 & St). rewrite Hch in Ea. destruct (fl_Atr Hf Hp) as (a' & Ea' & La & Qa). rewrite Ea in Ea'. injection Ea' as <-.
  induction i as [|i IH]; intros v Hv; [exact (Z0 v Hv)|]. assert (Hi : (S i < length kl)%nat) by (rewrite <- Lr; apply nth_error_Some; congruence).
  destruct (@some_at _ r i ltac:(lia)) as (w & Hw), (@some_at _ kl (S i) ltac:(lia)) as (k & Hk), (@some_at _ kl i ltac:(lia)) as (k' & Hk').
  destruct (St i v w k k' Hv Hw Hk Hk') as (x & Hx & S1 & S2). destruct (IH w Hw) as [I1 I2]. unfold flat_market in Hf. rewrite Forall_forall in Hf.
  destruct (Hf k (nth_error_In _ _ Hk)) as (_ & K1 & K2 & _). destruct (Hf k' (nth_error_In _ _ Hk')) as (_ & _ & _ & K3 & _). rewrite S1, S2 by (rewrite ?I1, ?I2; reflexivity).
  rewrite I1, I2, K1, K2, K3, (Qa _ _ Hx). unfold lower_line, upper_line. rewrite !xr_ofZ, !xr_add, xr_div, !xr_mul, !xr_sub, !xr_add, !xr_lt by lra.
  split; destruct i as [|i]; repeat (match goal with |- context [Rltb ?a ?b] => destruct (Rltb_spec a b); try lra end); rewrite ?xr_max, ?xr_min; apply (f_equal Fin); unfold Rmax, Rmin; repeat destruct (Rle_dec _ _); lra.
Qed.
Theorem C99_SuperTrend p : stChange p = true -> rests_at I_SuperTrend p (fun v => sUp v) the_price (if stPeriod p <? 2 then 0 else S (Z.to_nat (stPeriod p))) 1 /\ rests_at I_SuperTrend p (fun v => sDn v) the_price (if stPeriod p <? 2 then 0 else S (Z.to_nat (stPeriod p))) 1.
Proof.
  intros Hch. split; intros c kl Hc Hf Hn; (assert (Hp : stPeriod p < 2 \/ stPeriod p < len kl) by (destruct (Z.ltb_spec (stPeriod p) 2); [now left|right; unfold len; lia]));
  (destruct (x_SuperTrend (N := XR) kl p) as [[B _]|(_ & r & E & Lr)]; [rewrite Hch in B; intuition (lia || discriminate)|]); exists r; (split; [exact E|]); (split; [exact Lr|]); apply (@col_all (STV (N := XR))); try exact Lr;
  intros [|i] v Hi Hv; try lia; apply (fl_st p Hch Hc Hf Hp E (S i) Hv).
Qed.
Lemma st_quiet m src a cp c (prev : STRow (N := XR)) u : r_up prev = (Fin u : @F XR) -> (u <= c)%R -> r_trend prev = (Fin 1 : @F XR) ->
  let s := st_step (N := XR) m src a cp (Fin c) prev in r_trend s = (Fin 1 : @F XR) /\ r_upb s = (Fin 0 : @F XR) /\ r_dnb s = (Fin 0 : @F XR).
Proof.
  intros Hu Hc Ht. cbn zeta. unfold st_step. cbn [r_trend r_upb r_dnb]. rewrite Hu, Ht. assert (N1 : forall x y, Nz (N := XR) (Fin x) y = Fin x) by reflexivity. rewrite !N1, !xr_ofZ, !xr_eq, !xr_lt.
  destruct (Reqb_spec 1 (-1)); [lra|]. destruct (Rltb_spec c u); [lra|]. rewrite ?andb_false_r. cbn [andb]. destruct (Reqb_spec 1 1); [|lra]. cbn [andb]. rewrite ?xr_eq. destruct (Reqb_spec 1 (-1)); [lra|]. destruct (Reqb_spec 1 1); [|lra]. now repeat split.
Qed.
Theorem C99_SuperTrend_signals p : stChange p = true -> stays_out I_SuperTrend p (if stPeriod p <? 2 then 0 else S (Z.to_nat (stPeriod p))) 1.
Proof.
  intros Hch. destruct (C99_SuperTrend p Hch) as [M _]. apply (@stays I_SuperTrend p _ _ 1 _ _ ltac:(in_all) ltac:(no_proj) eq_refl (@C64_SuperTrend XR p)).
  intros c kl Hc Hf Hn. destruct (M c kl Hc Hf Hn) as (r & E & Lr & _). exists r. split; [exact E|]. split; [exact Lr|]. intros i v w k k' H0i Hv Hw Hk Hk'. cbn beta.
  assert (Hp : stPeriod p < 2 \/ stPeriod p < len kl) by (destruct (Z.ltb_spec (stPeriod p) 2); [now left|right; unfold len; lia]).
  pose proof (fl_st p Hch Hc Hf Hp E) as Q. destruct (@supertrend_rows XR p kl r E) as (_ & tr & Lt & T0 & _ & St).
  assert (G : forall i t, nth_error tr i = Some t -> t = (Fin 1 : @F XR) /\ forall v, nth_error r i = Some v -> (1 <= i)%nat -> sUpBegin (@rVal (STV (N := XR)) v) = (Fin 0 : @F XR) /\ sDnBegin (@rVal (STV (N := XR)) v) = (Fin 0 : @F XR)).
  { clear - Q St T0 Lt Lr Hf Hc. induction i as [|i IH]; intros t Ht; [split; [exact (T0 t Ht)|intros; lia]|].
    assert (Hi : (S i < length kl)%nat) by (rewrite <- Lt; apply nth_error_Some; congruence).
    destruct (@some_at _ r (S i) ltac:(lia)) as (v & Hv), (@some_at _ r i ltac:(lia)) as (w & Hw), (@some_at _ tr i ltac:(lia)) as (t' & Ht').
    destruct (St i v w t t' Hv Hw Ht Ht') as (a & X1 & X2). destruct (IH t' Ht') as [-> _]. destruct (Q i w Hw) as [Q1 Q2].
    rewrite (fl_close Hf (j := S i)) in X1, X2 by lia.
    destruct (@st_quiet (stMult p) ((cHigh (cn kl (S i)) +~ cLow (cn kl (S i))) /~ ofZ 2) a (cClose (cn kl i)) c (mkSTRow (N := XR) (sUp (rVal w)) (sUpBegin (rVal w)) (sDn (rVal w)) (sDnBegin (rVal w)) (Fin 1)) _ Q1 ltac:(destruct i; lra) eq_refl) as (S1 & S2 & S3).
    split; [rewrite X2; exact S1|]. intros v0 Hv0 _. rewrite Hv in Hv0. injection Hv0 as <-. split.
    - transitivity (sUpBegin (@rVal (STV (N := XR)) v)); [reflexivity|]. rewrite X1. exact S2.
    - transitivity (sDnBegin (@rVal (STV (N := XR)) v)); [reflexivity|]. rewrite X1. exact S3. }
  destruct (@some_at _ tr i) as (t & Ht); [rewrite Lt, <- Lr; apply nth_error_Some; congruence|]. destruct (G i t Ht) as [_ G']. destruct (G' v Hv H0i) as [G1 G2].
  split; intros X; [change (@feq XR (sUpBegin (@rVal (STV (N := XR)) v)) (ofZ 0) = false) in X; rewrite G1 in X|change (@feq XR (sDnBegin (@rVal (STV (N := XR)) v)) (ofZ 0) = false) in X; rewrite G2 in X]; rewrite xr_ofZ, xr_eq, Reqb_00 in X; discriminate X.
Qed.

Lemma fl_pivots c kl p : (0 < c)%R -> flat_market c kl -> 0 <= p -> exists ph pl, PivotHigh (N := XR) (map (fun c => cHigh c) kl) p p = Ok ph /\ PivotLow (N := XR) (map (fun c => cLow c) kl) p p = Ok pl /\
  (forall i, nth i ph (ofZ 0) = (Fin 0 : @F XR) \/ nth i ph (ofZ 0) = (Fin c : @F XR)) /\ (forall i, nth i pl (ofZ 0) = (Fin 0 : @F XR) \/ nth i pl (ofZ 0) = (Fin c : @F XR)).
Proof.
  intros Hc Hf Hp. rewrite <- (Z2Nat.id p) by exact Hp. set (q := Z.to_nat p).
  destruct (@PivotHigh_spec XR XR_ord q q (map (fun c => cHigh c) kl) (@fl_nonan c kl (fun c => cHigh c) (fl_high Hf))) as (ph & E1 & L1 & Q1).
  destruct (@PivotLow_spec XR XR_ord q q (map (fun c => cLow c) kl) (@fl_nonan c kl (fun c => cLow c) (fl_low Hf))) as (pl & E2 & L2 & Q2).
  exists ph, pl. split; [exact E1|]. split; [exact E2|]. rewrite map_length in L1, L2. rewrite (@fl_map c kl (fun c => cHigh c) (fl_high Hf)) in Q1. rewrite (@fl_map c kl (fun c => cLow c) (fl_low Hf)) in Q2. rewrite repeat_length in Q1, Q2.
  assert (N1 : forall j, (j < length kl)%nat -> nth j (repeat (Fin c : @F XR) (length kl)) fzero = (Fin c : @F XR)) by (intros j Hj; pose proof (@nth_In _ j (repeat (Fin c : @F XR) (length kl)) fzero ltac:(rewrite repeat_length; exact Hj)) as K; now apply repeat_spec in K).
  assert (N2 : ofZ 0 = (fzero : @F XR)) by reflexivity. rewrite N2.
  split; intros i; (destruct (Nat.lt_ge_cases i (length kl)) as [Hi|Hi]; [|left; apply nth_overflow; lia]).
  - destruct (Q1 i Hi) as [A B]. destruct (Nat.lt_ge_cases i (q + q)) as [Hq|Hq]; [left; exact (A Hq)|]. destruct (B Hq) as [B1 B2]. rewrite N1 in B1, B2 by lia.
    destruct (Classical_Prop.classic (max_of (Fin c : @F XR) (window (repeat (Fin c : @F XR) (length kl)) i (S (q + q))))) as [M|M]; [right; apply xeq_fin; exact (B1 M)|left; exact (B2 M)].
  - destruct (Q2 i Hi) as [A B]. destruct (Nat.lt_ge_cases i (q + q)) as [Hq|Hq]; [left; exact (A Hq)|]. destruct (B Hq) as [B1 B2]. rewrite N1 in B1, B2 by lia.
    destruct (Classical_Prop.classic (min_of (Fin c : @F XR) (window (repeat (Fin c : @F XR) (length kl)) i (S (q + q))))) as [M|M]; [right; apply xeq_fin; exact (B1 M)|left; exact (B2 M)].
Qed.
Lemma fl_centre c ph pl : (0 < c)%R -> (forall i, nth i ph (ofZ 0) = (Fin 0 : @F XR) \/ nth i ph (ofZ 0) = (Fin c : @F XR)) -> (forall i, nth i pl (ofZ 0) = (Fin 0 : @F XR) \/ nth i pl (ofZ 0) = (Fin c : @F XR)) ->
  forall i, centre_at (N := XR) ph pl i = Fin 0 \/ centre_at (N := XR) ph pl i = Fin c.
Proof.
  intros Hc H1 H2. induction i as [|i IH]; [now left|]. cbn [centre_at]. set (m := centre_at ph pl i) in *. specialize (H1 (S i)). specialize (H2 (S i)). set (a := nth (S i) ph (ofZ 0)) in *. set (b := nth (S i) pl (ofZ 0)) in *. clearbody m a b.
  assert (K : confirmed (N := XR) a b = Fin 0 \/ confirmed (N := XR) a b = Fin c).
  { unfold confirmed. rewrite xr_ofZ. destruct H1 as [-> | ->], H2 as [-> | ->]; rewrite ?xr_lt; repeat (match goal with |- context [Rltb ?a ?b] => destruct (Rltb_spec a b); try lra end); rewrite ?xr_lt; repeat (match goal with |- context [Rltb ?a ?b] => destruct (Rltb_spec a b); try lra end); auto. }
  set (x := confirmed a b) in *. clearbody x. unfold next_centre. rewrite !xr_ofZ. destruct K as [-> | ->]; rewrite !xr_eq; [rewrite Reqb_00; exact IH|]. destruct (Reqb_spec c 0); [lra|].
  destruct IH as [-> | ->]; rewrite !xr_eq; [rewrite Reqb_00; now right|]. destruct (Reqb_spec c 0); [lra|]. right. rewrite xr_mul, xr_add, xr_div by lra. apply (f_equal Fin). lra.
Qed.
Theorem C99_PivotPointSuperTrend_signals p f : ppFactor p = (Fin f : @F XR) -> 0 <= ppPeriod p -> stays_out I_PPST p (if ppAtr p <? 2 then 0 else S (Z.to_nat (ppAtr p))) 1.
Proof.
  intros Hfa Hpp. apply (@stays I_PPST p _ _ 1 _ _ ltac:(in_all) ltac:(no_proj) eq_refl (@C64_PivotPointSuperTrend XR p)).
  intros c kl Hc Hf Hn. assert (Hp : ppAtr p < 2 \/ ppAtr p < len kl) by (destruct (Z.ltb_spec (ppAtr p) 2); [now left|right; unfold len; lia]).
  destruct (x_PPST (N := XR) kl p) as [[B _]|(_ & r & E & Lr)]; [lia|]. exists r. split; [exact E|]. split; [exact Lr|]. intros i v w k k' H0i Hv Hw Hk Hk'. cbn beta.
  destruct (@C89_PivotPointSuperTrend XR p kl r E) as (ph & pl & atr & E1 & E2 & E3 & _ & lower & upper & dir & L1 & L2 & L3 & Z1 & Z2 & St).
  destruct (fl_pivots Hc Hf Hpp) as (ph' & pl' & F1 & F2 & Qh & Ql). rewrite E1 in F1. injection F1 as <-. rewrite E2 in F2. injection F2 as <-.
  destruct (fl_Atr Hf Hp) as (a' & Ea & La & Qa). rewrite E3 in Ea. injection Ea as <-.
  assert (G : forall i l d, nth_error lower i = Some l -> nth_error dir i = Some d -> (l = (Fin 0 : @F XR) \/ l = (Fin c : @F XR)) /\ d <> -1 /\
    forall v, nth_error r i = Some v -> (1 <= i)%nat -> sUpBegin (@rVal (STV (N := XR)) v) = (Fin 0 : @F XR) /\ sDnBegin (@rVal (STV (N := XR)) v) = (Fin 0 : @F XR)).
  { clear - Hfa Hc Hf Lr L1 L2 L3 Z1 Z2 St Qh Ql Qa. induction i as [|i IH]; intros l d Hl Hd; [split; [left; now apply Z1; left|split; [rewrite (Z2 d Hd); lia|intros; lia]]|].
    assert (Hi : (S i < length kl)%nat) by (rewrite <- L1; apply nth_error_Some; congruence).
    destruct (@some_at _ r (S i) ltac:(lia)) as (v & Hv), (@some_at _ lower i ltac:(lia)) as (l' & Hl'), (@some_at _ upper (S i) ltac:(lia)) as (h & Hh), (@some_at _ upper i ltac:(lia)) as (h' & Hh'), (@some_at _ dir i ltac:(lia)) as (d' & Hd'), (@some_at _ kl (S i) ltac:(lia)) as (k & Hk), (@some_at _ kl i ltac:(lia)) as (k' & Hk').
    destruct (IH l' d' Hl' Hd') as (I1 & I2 & _). destruct (St i v k k' l l' h h' d d' Hv Hk Hk' Hl Hl' Hh Hh' Hd Hd') as (a & Ha & S1 & _ & S3 & _ & S5 & _ & S7). clear St IH.
    unfold flat_market in Hf. rewrite Forall_forall in Hf. destruct (Hf k (nth_error_In _ _ Hk)) as (_ & _ & _ & K1 & _). destruct (Hf k' (nth_error_In _ _ Hk')) as (_ & _ & _ & K2 & _). rewrite K1 in S3. rewrite K2, Hfa, (Qa _ _ Ha) in S1.
    pose proof (@fl_centre c ph pl Hc Qh Ql (S i)) as M. set (m := centre_at ph pl (S i)) in *. clearbody m. split; [|].
    - rewrite S1. unfold lower_line. destruct M as [-> | ->], I1 as [-> | ->]; rewrite ?xr_mul, ?xr_sub, ?xr_lt; repeat (match goal with |- context [Rltb ?a ?b] => destruct (Rltb_spec a b); try lra end); rewrite ?xr_max; (let t := (apply (f_equal Fin); unfold Rmax; repeat destruct (Rle_dec _ _); lra) in (left; t) || (right; t)).
    - assert (D : d <> -1).
      { rewrite S3. destruct (h' <~ (Fin c : @F XR)); [lia|]. destruct I1 as [-> | ->]; rewrite xr_lt; match goal with |- context [Rltb ?a ?b] => destruct (Rltb_spec a b); try lra end; exact I2. }
      split; [exact D|]. intros v0 Hv0 _. rewrite Hv in Hv0. injection Hv0 as <-. destruct (Z.eqb_spec d' (-1)); [contradiction|]. destruct (Z.eqb_spec d (-1)); [contradiction|]. rewrite andb_false_r in S5. cbn [andb] in S7. split; [exact S5|exact S7]. }
  assert (Hi : (i < length kl)%nat) by (rewrite <- Lr; apply nth_error_Some; congruence). destruct (@some_at _ lower i ltac:(lia)) as (l & Hl), (@some_at _ dir i ltac:(lia)) as (d & Hd).
  destruct (G i l d Hl Hd) as (_ & _ & G'). destruct (G' v Hv H0i) as [G1 G2].
  split; intros X; [change (@feq XR (sUpBegin (@rVal (STV (N := XR)) v)) (ofZ 0) = false) in X; rewrite G1 in X|change (@feq XR (sDnBegin (@rVal (STV (N := XR)) v)) (ofZ 0) = false) in X; rewrite G2 in X]; rewrite xr_ofZ, xr_eq, Reqb_00 in X; discriminate X.
Qed.

Print Assumptions C99_Rsi_signals.
Print Assumptions C99_StochRsi_signals.
Print Assumptions C99_Stoch_signals.
Print Assumptions C99_Macd_signals.
Print Assumptions C99_APO_signals.
Print Assumptions C99_AO_signals.
Print Assumptions C99_Chaikin_signals.
Print Assumptions C99_PPO_signals.
Print Assumptions C99_Boll_signals.
Print Assumptions C99_Donchian_signals.
Print Assumptions C99_Keltner_signals.
Print Assumptions C99_Ichimoku_signals.
Print Assumptions C99_Cci_signals.
Print Assumptions C99_EMAVegas_signals.
Print Assumptions C99_Camarilla_signals.
Print Assumptions C99_TraderXO_signals.
Print Assumptions C99_UTBot.
Print Assumptions C99_UTBot_signals.
Print Assumptions C99_SuperTrend.
Print Assumptions C99_SuperTrend_signals.
Print Assumptions C99_PivotPointSuperTrend_signals.
