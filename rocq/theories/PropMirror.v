(** * PropMirror: property C98, turning the chart upside down. *)
From Coq Require Import Reals Lra ZArith Lia Bool List PeanoNat.
From Verif Require Import Base Num XReal Order OrderMore FloatLaws FloatOrder FloatBounds SpecNum B64 Lits Containers Ta TaTools TaAvg TaRange TaStat SpecTa Sides Klines RSum XrMore
  IndBase IndTrend IndChannel IndOsc IndVolume IndTools IndForms IndForms2 IndForms3 IndForms4 IndForms5 IndFormsSpec IndBounds IndBounds2 IndExact TaDev TaReg SpecInd SpecInd2 SpecBar SpecMemory SpecMirror
  PropInd1 PropInd2 PropInd5 PropInd6 PropInd7 PropInd8 PropInd9 PropInd11 PropInd12 PropMemory ShiftTools PropShift MirrorTools.
Import ListNotations.
Set Implicit Arguments.
Open Scope Z_scope.
Local Notation C kl := (fun i => cClose (cn kl i)).
Local Notation H kl := (fun i => cHigh (cn kl i)).
Local Notation L kl := (fun i => cLow (cn kl i)).
Local Notation V kl := (fun i => cVolume (cn kl i)).
Local Notation rows kl g := (Ok (tab (length kl) (fun i => mkRow (tm kl i) (g i)))).
Local Notation kline := (list (Candle (N := XR))).
(** averages and bands: x becomes c - x; differences: x becomes - x *)
Local Notation same_level := (fun c : R => c).
Local Notation negated := (fun _ : R => 0%R).

(** ** Averages *)
Theorem C98_Sma (p : nat) : (1 <= p)%nat -> mirrors I_Ma (Z.of_nat p) (fun v => v) (fun v => v) same_level 1 /\ mirrors I_Sma (Z.of_nat p) (fun v => v) (fun v => v) same_level 1.
Proof.
  intros Hp. split; apply mirrors_F with (G := fun kl => smaF p (C kl)); try (intros kl; first [rewrite Ma_T by lia|rewrite Sma_ind_T by lia]; now rewrite Nat2Z.id);
  intros c kl Hr; apply turned_sma; auto; now apply mir_close.
Qed.
Theorem C98_Ema p : 0 <= p -> mirrors I_Ema p (fun v => v) (fun v => v) same_level 1 /\ mirrors I_Dema p (fun v => v) (fun v => v) same_level 1.
Proof.
  intros Hp. split.
  - apply mirrors_F with (G := fun kl => emaF p (C kl)); [intros; apply Ema_ind_T|]. intros c kl Hr. apply turned_ema; auto. now apply mir_close.
  - eapply mirrors_F; [intros kl; apply Dema_ind_T|]. intros c kl Hr i Hi. pose proof (turned_ema Hp (mir_close c Hr)) as M1. pose proof (turned_ema Hp M1) as M2.
    eapply nrel_w; [apply nrel_add; [apply (nrel_mulc 2 (M1 i Hi))|apply (nrel_mulc (-1) (M2 i Hi))]|lra].
Qed.
Theorem C98_TraderXO p : 0 <= xFastP p -> 0 <= xSlowP p ->
  mirrors I_TraderXO p (fun v => xFast v) (fun v => xFast v) same_level 1 /\ mirrors I_TraderXO p (fun v => xSlow v) (fun v => xSlow v) same_level 1.
Proof. intros H1 H2. split; (eapply mirrors_F; [intros kl; apply TraderXO_T|]; intros c kl Hr; cbn [xFast xSlow]; apply turned_ema; auto; now apply mir_close). Qed.
Theorem C98_EMAVegas p : 0 <= vgP p -> 0 <= vgS1 p -> 0 <= vgS2 p -> 0 <= vgL1 p -> 0 <= vgL2 p ->
  mirrors I_EMAVegas p (fun v => gV v) (fun v => gV v) same_level 1 /\ mirrors I_EMAVegas p (fun v => gS1 v) (fun v => gS1 v) same_level 1 /\ mirrors I_EMAVegas p (fun v => gS2 v) (fun v => gS2 v) same_level 1 /\
  mirrors I_EMAVegas p (fun v => gL1 v) (fun v => gL1 v) same_level 1 /\ mirrors I_EMAVegas p (fun v => gL2 v) (fun v => gL2 v) same_level 1.
Proof.
  intros H1 H2 H3 H4 H5. repeat apply conj; (eapply mirrors_F; [intros kl; apply EMAVegas_T|]; intros c kl Hr; unfold vegasF; cbn [gV gS1 gS2 gL1 gL2]; apply turned_ema; auto; now apply mir_close).
Qed.

(** ** Bands: the upper and the lower one change places *)
Theorem C98_Donchian p : 1 <= p -> mirrors I_Donchian p (fun v => bUpper v) (fun v => bLower v) same_level 1 /\ mirrors I_Donchian p (fun v => bMiddle v) (fun v => bMiddle v) same_level 1 /\
  mirrors I_Donchian p (fun v => bLower v) (fun v => bUpper v) same_level 1.
Proof.
  intros Hp. set (P := fun (kl : kline) g => exists u l, tops (fun k => cClose k) p kl u /\ bottoms (fun k => cClose k) p kl l /\ g = fun i => mkBand (N := XR) (u i) ((u i +~ l i) *~ (ofZ 1 /~ ofZ 2)) (l i)).
  assert (ET : forall kl, real_candles kl -> (1 <= length kl)%nat -> exists g, rows_of I_Donchian p kl = rows kl g /\ P kl g).
  { intros kl Hr _. destruct (@Donchian_T XR XR_ord p kl Hp (real_no_nan _ bar_close Hr)) as (u & l & Hu & Hl & E). eexists. split; [exact E|]. exists u, l. auto. }
  repeat apply conj; (apply mirrors_T with (P := P); [exact ET|]; intros c kl g g' Hr (u & l & U & D & ->) (u' & l' & U' & D' & ->) i Hi; cbn [bUpper bMiddle bLower]; apply nrel_flip;
    assert (MU := @top_turn (fun k => cClose k) (fun k => cClose k) p c kl l u' bar_close (fun k => eq_refl) Hr D U' i ltac:(lia)); assert (ML := @bottom_turn (fun k => cClose k) (fun k => cClose k) p c kl u l' bar_close (fun k => eq_refl) Hr U D' i ltac:(lia)); auto).
  rewrite half_is. eapply nrel_w; [apply nrel_mulc|]. { destruct MU as (a & Ea & Ea'), ML as (b & Eb & Eb'). exists (a + b)%R. rewrite Ea, Eb, Ea', Eb'. split; cbn; f_equal; [lra|]. instantiate (1 := (c + c)%R). lra. } lra.
Qed.
Theorem C98_Boll p : 1 <= blN p -> mirrors I_Boll p (fun v => blUpper v) (fun v => blLower v) same_level 1 /\ mirrors I_Boll p (fun v => blMiddle v) (fun v => blMiddle v) same_level 1 /\
  mirrors I_Boll p (fun v => blLower v) (fun v => blUpper v) same_level 1 /\ trades_places I_Boll p (fun v => blMD v) (fun v => blMD v).
Proof.
  intros Hp.
  assert (G : forall c kl, real_candles kl -> forall i, (i < length kl)%nat ->
    nrel c (blUpper (bollF (Z.to_nat (blN p)) kl i)) (blLower (bollF (Z.to_nat (blN p)) (map (mirrored c) kl) i)) /\
    nrel c (blMiddle (bollF (Z.to_nat (blN p)) kl i)) (blMiddle (bollF (Z.to_nat (blN p)) (map (mirrored c) kl) i)) /\
    nrel c (blLower (bollF (Z.to_nat (blN p)) kl i)) (blUpper (bollF (Z.to_nat (blN p)) (map (mirrored c) kl) i)) /\
    blMD (bollF (Z.to_nat (blN p)) (map (mirrored c) kl) i) = blMD (bollF (Z.to_nat (blN p)) kl i)).
  { intros c kl Hr i Hi.
    destruct (@C52_exact p kl (nums (fun k => cClose k) kl) Hp (nums_fins _ Hr bar_close)) as (r & E & _ & Q).
    destruct (@C52_exact p (map (mirrored c) kl) (nums (fun k => cClose k) (map (mirrored c) kl)) Hp (nums_fins _ (mir_real c Hr) bar_close)) as (r' & E' & _ & Q').
    rewrite Boll_T in E, E' by exact Hp. injection E as <-. injection E' as <-. rewrite map_length in Q'.
    specialize (Q i _ (nth_error_tab _ Hi)). specialize (Q' i _ (nth_error_tab _ Hi)). cbn [rVal] in Q, Q'. cbn zeta in Q, Q'.
    rewrite (@nums_turn c (fun k => cClose k) (fun k => cClose k) kl bar_close (fun k b _ => eq_refl) Hr), window_map, variance_turn, mean_turn in Q' by (apply win_ne; [lia|unfold nums; now rewrite map_length]).
    destruct Q as (Q1 & Q2 & Q3 & Q4), Q' as (R1 & R2 & R3 & R4). rewrite Q1, Q2, Q3, Q4, R1, R2, R3, R4.
    repeat split; (eexists; split; [reflexivity|]; f_equal; lra). }
  repeat apply conj; [apply mirrors_F with (G := bollF (Z.to_nat (blN p)))|apply mirrors_F with (G := bollF (Z.to_nat (blN p)))|apply mirrors_F with (G := bollF (Z.to_nat (blN p)))|apply trades_F with (G := bollF (Z.to_nat (blN p)))];
  try (intros kl; now apply Boll_T); intros c kl; [intros Hr i Hi|intros Hr i Hi|intros Hr i Hi|intros i Hr Hi]; now apply G.
Qed.

(** ** Differences of averages *)
Lemma ema_turn c kl p q : 0 <= p -> 0 <= q -> real_candles kl -> turned 0 (length kl) (fun i => emaF p (C kl) i +~ emaF q (C kl) i *~ ofZ (-1))
  (fun i => emaF p (C (map (mirrored c) kl)) i +~ emaF q (C (map (mirrored c) kl)) i *~ ofZ (-1)).
Proof.
  intros Hp Hq Hr i Hi. eapply nrel_w; [apply nrel_add; [apply (turned_ema Hp (mir_close c Hr) Hi)|apply (nrel_mulc (-1) (turned_ema Hq (mir_close c Hr) Hi))]|lra].
Qed.
Theorem C98_Macd p : 0 <= mShort p -> 0 <= mLong p -> 0 <= mSignal p ->
  mirrors I_Macd p (fun v => mDIF v) (fun v => mDIF v) negated 1 /\ mirrors I_Macd p (fun v => mDEA v) (fun v => mDEA v) negated 1 /\ mirrors I_Macd p (fun v => mMacd v) (fun v => mMacd v) negated 1.
Proof.
  intros H1 H2 H3.
  assert (D : forall c kl, real_candles kl -> turned 0 (length kl) (difF p kl) (difF p (map (mirrored c) kl))) by (intros c kl Hr; unfold difF; now apply ema_turn).
  repeat apply conj; (eapply mirrors_F; [intros kl; apply Macd_T|]; intros c kl Hr i Hi; cbn [mDIF mDEA mMacd]).
  - now apply D.
  - now apply (turned_ema H3 (D c kl Hr)).
  - eapply nrel_w; [apply (nrel_mulc 2 (nrel_sub (D c kl Hr i Hi) (turned_ema H3 (D c kl Hr) Hi)))|lra].
Qed.
Theorem C98_APO p : 0 <= fsFast p -> 0 <= fsSlow p -> mirrors I_APO p (fun v => v) (fun v => v) negated 1.
Proof. intros H1 H2. eapply mirrors_F; [intros kl; apply APO_T|]. intros c kl Hr. now apply ema_turn. Qed.
Theorem C98_AO : mirrors I_AO tt (fun v => v) (fun v => v) negated 1.
Proof.
  eapply mirrors_F; [intros kl; apply AO_T|]. intros c kl Hr i Hi. unfold aoF.
  assert (M : turned c (length kl) (medF kl) (medF (map (mirrored c) kl))).
  { intros j Hj. unfold medF. rewrite half_is. destruct (mir_low c Hr Hj) as (a & Ea & Ea'), (mir_high c Hr Hj) as (b & Eb & Eb'). cbn beta in *. rewrite Ea, Ea', Eb, Eb'. exists ((a + b) * / 2)%R. split; cbn; f_equal; lra. }
  eapply nrel_w; [apply nrel_add; [apply (@turned_ema 5 _ _ _ _ ltac:(lia) M i Hi)|apply (nrel_mulc (-1) (@turned_ema 34 _ _ _ _ ltac:(lia) M i Hi))]|lra].
Qed.

(** ** Volume indicators that compare prices *)
Theorem C98_Obv : mirrors I_Obv tt (fun v => v) (fun v => v) negated 1.
Proof.
  eapply mirrors_F; [intros kl; apply Obv_T|]. intros c kl Hr i. induction i as [|i IH]; intros Hi; cbn [obvF]; [exists 0%R; split; cbn; f_equal; lra|].
  pose proof (mir_close c Hr (j := S i) Hi) as M1. pose proof (mir_close c Hr (j := i) ltac:(lia)) as M2. cbn beta in M1, M2.
  rewrite (lt_turn M2 M1), (lt_turn M1 M2), (eq_turn M1 M2), (mir_volume c kl Hi).
  destruct (IH ltac:(lia)) as (o & Eo & Eo'). cbn beta in Eo, Eo'. rewrite Eo, Eo'. destruct M1 as (x & -> & _), M2 as (y & -> & _). destruct (real_cn Hr Hi) as (b & _ & _ & _ & _ & ->). cbn.
  destruct (Rltb_spec y x), (Rltb_spec x y), (Reqb_spec x y); try lra; eexists; (split; [reflexivity|f_equal; lra]).
Qed.
Lemma ad_turn c kl : real_candles kl -> forall i, (i < length kl)%nat -> adF (map (mirrored c) kl) i = neg (adF kl i).
Proof.
  intros Hr. assert (A : forall i, (i < length kl)%nat -> adV (map (mirrored c) kl) i = neg (adV kl i)).
  { intros i Hi. unfold adV, ad_val. pose proof (mir_close c Hr Hi) as MC. pose proof (mir_high c Hr Hi) as MH. pose proof (mir_low c Hr Hi) as ML. cbn beta in MC, MH, ML. cbn zeta.
    rewrite (sub_turn MC ML), (sub_turn MH MC), (sub_turn MH ML), (mir_volume c kl Hi).
    replace (cHigh (cn kl i) -~ cClose (cn kl i) -~ (cClose (cn kl i) -~ cLow (cn kl i))) with (neg (cClose (cn kl i) -~ cLow (cn kl i) -~ (cHigh (cn kl i) -~ cClose (cn kl i)))).
    2:{ destruct MC as (x & -> & _), MH as (y & -> & _), ML as (z & -> & _). cbn. f_equal. lra. }
    rewrite neg_div, neg_mul, neg_nan. destruct (isNaN _); [cbn; f_equal; lra|reflexivity]. }
  induction i as [|i IH]; intros Hi; cbn [adF]; [rewrite A by exact Hi|rewrite IH, A by lia]; rewrite <- neg_add; [f_equal; cbn; f_equal; lra|reflexivity].
Qed.
Lemma mirrors_neg (I : Indicator (N := XR)) (p : Param I) (f g : Val I -> @F XR) (G : kline -> nat -> Val I) :
  (forall kl, rows_of I p kl = rows kl (G kl)) ->
  (forall c kl i, real_candles kl -> (i < length kl)%nat -> g (G (map (mirrored c) kl) i) = neg (f (G kl i))) -> mirrors I p f g negated 1.
Proof. intros HT HM. apply mirrors_T with (P := fun kl g => g = G kl). { intros kl _ _. eauto. } intros c kl G1 G2 Hr -> -> i Hi. rewrite HM by (auto; lia). symmetry. apply flip0. Qed.
Theorem C98_AD : mirrors I_AD tt (fun v => v) (fun v => v) negated 1.
Proof. eapply mirrors_neg; [intros kl; apply AD_T|]. intros c kl i Hr Hi. now apply ad_turn. Qed.
Theorem C98_Chaikin p : mirrors I_Chaikin p (fun v => coValue v) (fun v => coValue v) negated 1 /\ mirrors I_Chaikin p (fun v => coAD v) (fun v => coAD v) negated 1.
Proof.
  split; (eapply mirrors_neg; [intros kl; apply Chaikin_T|]); intros c kl i Hr Hi; unfold chaikinF; cbn [coValue coAD]; [|now apply ad_turn].
  rewrite (neg_ema (fsFast p) _ _ (ad_turn c Hr) Hi), (neg_ema (fsSlow p) _ _ (ad_turn c Hr) Hi). now rewrite neg_mul_l, neg_add.
Qed.
Lemma neg_clean x y : div_clean (neg x) y = neg (div_clean x y).
Proof. unfold div_clean. cbn zeta. rewrite neg_div. destruct (x /~ y) as [a| | |]; unfold isInf; cbn; auto; f_equal; lra. Qed.
Theorem C98_CMF p : 0 <= p -> mirrors I_CMF p (fun v => v) (fun v => v) negated 1.
Proof.
  intros Hp. eapply mirrors_neg; [intros kl; now apply CMF_T|]. intros c kl i Hr Hi. unfold cmfF.
  assert (A : forall j, (j < length kl)%nat -> cmfM (map (mirrored c) kl) j = neg (cmfM kl j)).
  { intros j Hj. unfold cmfM. pose proof (mir_close c Hr Hj) as MC. pose proof (mir_high c Hr Hj) as MH. pose proof (mir_low c Hr Hj) as ML. cbn beta in MC, MH, ML.
    rewrite (dif_turn MC ML), (dif_turn MH MC), (dif_turn MH ML), (mir_volume c kl Hj), <- neg_mul_l, <- neg_clean. do 2 f_equal.
    destruct MC as (x & -> & _), MH as (y & -> & _), ML as (z & -> & _). cbn. f_equal. lra. }
  rewrite (neg_run (Z.to_nat p) _ _ A (j := S i)) by lia. rewrite (@runF_same (Z.to_nat p) (length kl) (V kl) (V (map (mirrored c) kl))) with (j := S i) by (intros; (now apply mir_volume) || lia).
  apply neg_clean.
Qed.
Print Assumptions C98_Sma.
Print Assumptions C98_Ema.
Print Assumptions C98_TraderXO.
Print Assumptions C98_EMAVegas.
Print Assumptions C98_Donchian.
Print Assumptions C98_Boll.
Print Assumptions C98_Macd.
Print Assumptions C98_APO.
Print Assumptions C98_AO.
Print Assumptions C98_Obv.
Print Assumptions C98_AD.
Print Assumptions C98_Chaikin.
Print Assumptions C98_CMF.
