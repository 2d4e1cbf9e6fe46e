(** * PropShift: property C97, adding a constant to every price. *)
From Coq Require Import Reals Lra ZArith Lia Bool List PeanoNat.
From Verif Require Import Base Num XReal Order OrderMore FloatLaws FloatOrder FloatBounds SpecNum B64 Lits Containers Ta TaTools TaAvg TaRange TaStat SpecTa Sides Klines RSum XrMore
  IndBase IndTrend IndChannel IndOsc IndVolume IndTools IndForms IndForms2 IndForms3 IndForms4 IndForms5 IndFormsSpec IndBounds IndBounds2 IndExact TaDev TaReg SpecInd SpecInd2 SpecBar SpecMemory SpecShift
  PropInd1 PropInd2 PropInd5 PropInd6 PropInd7 PropInd8 PropInd9 PropInd11 PropInd12 PropMemory ShiftTools.
Import ListNotations.
Set Implicit Arguments.
Open Scope Z_scope.
Local Notation C kl := (fun i => cClose (cn kl i)).
Local Notation H kl := (fun i => cHigh (cn kl i)).
Local Notation L kl := (fun i => cLow (cn kl i)).
Local Notation V kl := (fun i => cVolume (cn kl i)).
Local Notation rows kl g := (Ok (tab (length kl) (fun i => mkRow (tm kl i) (g i)))).
Local Notation kline := (list (Candle (N := XR))).

(** one form for all candle lists *)
Lemma follows_F (I : Indicator (N := XR)) (p : Param I) (f : Val I -> @F XR) (G : kline -> nat -> Val I) :
  (forall kl, rows_of I p kl = rows kl (G kl)) ->
  (forall c kl, real_candles kl -> moved c (length kl) (fun i => f (G kl i)) (fun i => f (G (map (lifted c) kl) i))) -> follows_level I p f 1.
Proof. intros HT HM. apply follows_T with (P := fun kl g => g = G kl). { intros kl _ _. eauto. } intros c kl g g' Hr -> -> i Hi. apply (HM c kl Hr). lia. Qed.
Lemma ignores_F B (I : Indicator (N := XR)) (p : Param I) (f : Val I -> B) (G : kline -> nat -> Val I) :
  (forall kl, rows_of I p kl = rows kl (G kl)) ->
  (forall c kl i, real_candles kl -> (i < length kl)%nat -> f (G (map (lifted c) kl) i) = f (G kl i)) -> ignores_level I p f.
Proof. intros HT HM. apply ignores_T with (P := fun kl g => g = G kl). { intros kl _. eauto. } intros c kl g g' Hr -> -> i Hi. now apply HM. Qed.

(** ** Averages and bands move with the chart *)
Theorem C97_Sma (p : nat) : (1 <= p)%nat -> follows_level I_Ma (Z.of_nat p) (fun v => v) 1 /\ follows_level I_Sma (Z.of_nat p) (fun v => v) 1.
Proof.
  intros Hp. split; apply follows_F with (G := fun kl => smaF p (C kl)); try (intros kl; first [rewrite Ma_T by lia|rewrite Sma_ind_T by lia]; now rewrite Nat2Z.id);
  intros c kl Hr; apply moved_sma; auto; now apply lift_close.
Qed.
Theorem C97_Ema p : 0 <= p -> follows_level I_Ema p (fun v => v) 1 /\ follows_level I_Dema p (fun v => v) 1.
Proof.
  intros Hp. split.
  - apply follows_F with (G := fun kl => emaF p (C kl)); [intros; apply Ema_ind_T|]. intros c kl Hr. apply moved_ema; auto. now apply lift_close.
  - eapply follows_F; [intros kl; apply Dema_ind_T|]. intros c kl Hr i Hi. pose proof (moved_ema Hp (lift_close c Hr)) as M1. pose proof (moved_ema Hp M1) as M2.
    eapply mrel_w; [apply mrel_add; [apply (mrel_mulc 2 (M1 i Hi))|apply (mrel_mulc (-1) (M2 i Hi))]|lra].
Qed.
Theorem C97_TraderXO p : 0 <= xFastP p -> 0 <= xSlowP p -> follows_level I_TraderXO p (fun v => xFast v) 1 /\ follows_level I_TraderXO p (fun v => xSlow v) 1.
Proof. intros H1 H2. split; (eapply follows_F; [intros kl; apply TraderXO_T|]; intros c kl Hr; cbn [xFast xSlow]; apply moved_ema; auto; now apply lift_close). Qed.
Theorem C97_EMAVegas p : 0 <= vgP p -> 0 <= vgS1 p -> 0 <= vgS2 p -> 0 <= vgL1 p -> 0 <= vgL2 p ->
  follows_level I_EMAVegas p (fun v => gV v) 1 /\ follows_level I_EMAVegas p (fun v => gS1 v) 1 /\ follows_level I_EMAVegas p (fun v => gS2 v) 1 /\
  follows_level I_EMAVegas p (fun v => gL1 v) 1 /\ follows_level I_EMAVegas p (fun v => gL2 v) 1.
Proof.
  intros H1 H2 H3 H4 H5. repeat apply conj; (eapply follows_F; [intros kl; apply EMAVegas_T|]; intros c kl Hr; unfold vegasF; cbn [gV gS1 gS2 gL1 gL2]; apply moved_ema; auto; now apply lift_close).
Qed.

(** true range: only the first one changes, and the average never reads it *)
Lemma fmax_same w x x' y y' : mrel w x x' -> mrel w y y' -> mrel w (fmax x y) (fmax x' y').
Proof.
  intros (r & -> & ->) (s & -> & ->). rewrite !xr_max. exists (Rmax r s). split; [reflexivity|]. f_equal. unfold Rmax. destruct (Rle_dec r s), (Rle_dec (r + w) (s + w)); lra.
Qed.
Lemma tr_same c kl : real_candles kl -> forall j, (1 <= j < length kl)%nat -> trF (map (lifted c) kl) j = trF kl j.
Proof.
  intros Hr [|j] Hj; [lia|]. unfold trF. rewrite (sub_same (lift_high c Hr (j := S j) ltac:(lia)) (lift_low c Hr (j := S j) ltac:(lia))).
  rewrite (sub_same (lift_high c Hr (j := S j) ltac:(lia)) (lift_close c Hr (j := j) ltac:(lia))). now rewrite (sub_same (lift_low c Hr (j := S j) ltac:(lia)) (lift_close c Hr (j := j) ltac:(lia))).
Qed.
Lemma atr_same p c kl : real_candles kl -> forall j, (j < length kl)%nat -> rmaF p (length (map (lifted c) kl)) (trF (map (lifted c) kl)) j = rmaF p (length kl) (trF kl) j.
Proof. intros Hr j Hj. rewrite map_length. apply rmaF_same; [|exact Hj]. now apply tr_same. Qed.
Theorem C97_Atr p : ignores_level I_Atr p (fun v => aAtr v).
Proof. eapply ignores_F; [intros kl; apply Atr_ind_T|]. intros c kl i Hr Hi. unfold atrG. cbn [aAtr]. now apply atr_same. Qed.
Lemma isR_divZ' x k : k <> 0 -> isR x -> isR (x /~ ofZ k). Proof. apply isR_divZ. Qed.
Lemma rma_isR p n f : 1 <= p -> (forall j, (j < n)%nat -> isR (f j)) -> forall j, (j < n)%nat -> isR (rmaF (N := XR) p n f j).
Proof.
  intros Hp Hf. assert (Q : forall j, (j < n)%nat -> isR (fst (rmaS p (tab n f) j)) /\ isR (snd (rmaS p (tab n f) j))).
  { induction j as [|j IH]; intros Hj; cbn [rmaS]; [split; apply isR_Z|]. destruct IH as [I1 I2]; [lia|]. destruct (rmaS p (tab n f) j) as [s r]. cbn [fst snd] in I1, I2.
    rewrite tab_nth by exact Hj. pose proof (Hf (S j) Hj).
    destruct (_ <? _); cbn [fst snd]; split; try (apply isR_divZ'; [lia|]); apply isR_add; auto; apply isR_mul; auto; apply isR_Z. }
  intros j Hj. now apply Q.
Qed.
Lemma tr_isR kl : real_candles kl -> forall j, (j < length kl)%nat -> isR (trF kl j).
Proof.
  intros Hr j Hj. destruct (real_cn Hr Hj) as (b & Hb). unfold trF.
  assert (isR (match j with O => fzero | S j => C kl j end)). { destruct j as [|j]; [apply isR_Z|]. assert (Hj' : (j < length kl)%nat) by lia. destruct (real_cn Hr Hj') as (b' & Hb'). eapply bar_close; eassumption. }
  isR_tac.
Qed.
Theorem C97_Keltner p : 1 <= p -> follows_level I_Keltner p (fun v => bUpper v) 1 /\ follows_level I_Keltner p (fun v => bMiddle v) 1 /\ follows_level I_Keltner p (fun v => bLower v) 1.
Proof.
  intros Hp. repeat apply conj; (eapply follows_F; [intros kl; apply Keltner_T|]; intros c kl Hr i Hi; unfold keltF; cbn [bUpper bMiddle bLower]);
  assert (M : mrel c (emaF p (C kl) i) (emaF p (C (map (lifted c) kl)) i)) by (apply (@moved_ema p c (length kl)); [lia|now apply lift_close|exact Hi]);
  rewrite ?(atr_same p c Hr Hi);
  assert (A : mrel 0 (rmaF p (length kl) (trF kl) i) (rmaF p (length kl) (trF kl) i)) by (apply mrel_self, rma_isR; auto; now apply tr_isR); auto.
  - eapply mrel_w; [apply mrel_add; [exact M|apply (mrel_mulc 2 A)]|lra].
  - eapply mrel_w; [apply mrel_add; [exact M|apply (mrel_mulc (-1) (mrel_mulc 2 A))]|lra].
Qed.
(** extremes *)
Lemma fins_of (l : list (@F XR)) : (forall x, In x l -> exists r, x = Fin r) -> exists rs, l = fins rs.
Proof. induction l as [|x l IH]; intros Hl; [now exists []|]. destruct IH as (rs & ->); [intros; apply Hl; now right|]. destruct (Hl x (or_introl eq_refl)) as (r & ->). now exists (r :: rs). Qed.
Lemma fins_shift c l : map (fun x => x +~ (Fin c : @F XR)) (fins l) = fins (map (fun x => x + c)%R l).
Proof. unfold fins. rewrite !map_map. reflexivity. Qed.
Lemma top_shift (q : Candle (N := XR) -> @F XR) p c (kl : kline) u u' : (forall k b, is_bar k b -> exists r, q k = Fin r) -> (forall k, q (lifted c k) = q k +~ (Fin c : @F XR)) -> real_candles kl ->
  tops q p kl u -> tops q p (map (lifted c) kl) u' -> moved c (length kl) u u'.
Proof.
  intros Hb Hq Hr T T' j Hj. specialize (T j Hj). specialize (T' j ltac:(now rewrite map_length)). rewrite (lift_map q c kl Hq), window_map in T'.
  destruct (@fins_of (window (map q kl) j (Z.to_nat p))) as (rs & E). { intros x Hx. apply window_In in Hx. eapply real_map; eauto. }
  rewrite E in T. rewrite E, fins_shift in T'. apply max_of_exact in T as (r & -> & I1 & U1), T' as (r' & -> & I2 & U2).
  exists r. split; [reflexivity|]. f_equal. apply in_map_iff in I2 as (y & <- & Iy). apply Rle_antisym; [pose proof (U1 y Iy); lra|]. apply U2. now apply in_map with (f := fun x => (x + c)%R).
Qed.
Lemma bottom_shift (q : Candle (N := XR) -> @F XR) p c (kl : kline) u u' : (forall k b, is_bar k b -> exists r, q k = Fin r) -> (forall k, q (lifted c k) = q k +~ (Fin c : @F XR)) -> real_candles kl ->
  bottoms q p kl u -> bottoms q p (map (lifted c) kl) u' -> moved c (length kl) u u'.
Proof.
  intros Hb Hq Hr T T' j Hj. specialize (T j Hj). specialize (T' j ltac:(now rewrite map_length)). rewrite (lift_map q c kl Hq), window_map in T'.
  destruct (@fins_of (window (map q kl) j (Z.to_nat p))) as (rs & E). { intros x Hx. apply window_In in Hx. eapply real_map; eauto. }
  rewrite E in T. rewrite E, fins_shift in T'. apply min_of_exact in T as (r & -> & I1 & U1), T' as (r' & -> & I2 & U2).
  exists r. split; [reflexivity|]. f_equal. apply in_map_iff in I2 as (y & <- & Iy). apply Rle_antisym; [|pose proof (U1 y Iy); lra]. apply U2. now apply in_map with (f := fun x => (x + c)%R).
Qed.
Theorem C97_Donchian p : 1 <= p -> follows_level I_Donchian p (fun v => bUpper v) 1 /\ follows_level I_Donchian p (fun v => bMiddle v) 1 /\ follows_level I_Donchian p (fun v => bLower v) 1.
Proof.
  intros Hp. set (P := fun (kl : kline) g => exists u l, tops (fun k => cClose k) p kl u /\ bottoms (fun k => cClose k) p kl l /\ g = fun i => mkBand (N := XR) (u i) ((u i +~ l i) *~ (ofZ 1 /~ ofZ 2)) (l i)).
  assert (ET : forall kl, real_candles kl -> (1 <= length kl)%nat -> exists g, rows_of I_Donchian p kl = rows kl g /\ P kl g).
  { intros kl Hr _. destruct (@Donchian_T XR XR_ord p kl Hp (real_no_nan _ bar_close Hr)) as (u & l & Hu & Hl & E). eexists. split; [exact E|]. exists u, l. auto. }
  repeat apply conj; (apply follows_T with (P := P); [exact ET|]; intros c kl g g' Hr (u & l & U & D & ->) (u' & l' & U' & D' & ->) i Hi; cbn [bUpper bMiddle bLower];
    assert (MU := top_shift c bar_close (fun k => eq_refl) Hr U U' (j := i) ltac:(lia)); assert (ML := bottom_shift c bar_close (fun k => eq_refl) Hr D D' (j := i) ltac:(lia)); auto).
  rewrite half_is. eapply mrel_w; [apply mrel_mulc, mrel_add; eassumption|lra].
Qed.
Lemma nums_lift c (q : Candle (N := XR) -> @F XR) (kl : kline) : (forall k b, is_bar k b -> exists r, q k = Fin r) -> (forall k, q (lifted c k) = q k +~ (Fin c : @F XR)) -> real_candles kl ->
  nums q (map (lifted c) kl) = map (fun x => x + c)%R (nums q kl).
Proof.
  intros Hb Hq (bs & HB). unfold nums. rewrite !map_map. induction HB as [|k b kl bs Hk HB IH]; [reflexivity|]. cbn [map]. rewrite IH, Hq. destruct (Hb _ _ Hk) as (r & ->). reflexivity.
Qed.
Lemma win_ne A (l : list A) i p : (1 <= p)%nat -> (i < length l)%nat -> window l i p <> [].
Proof. intros Hp Hi E. apply (f_equal (@length _)) in E. rewrite window_length_eq in E by exact Hi. cbn [length] in E. lia. Qed.
Theorem C97_Boll p : 1 <= blN p -> follows_level I_Boll p (fun v => blUpper v) 1 /\ follows_level I_Boll p (fun v => blMiddle v) 1 /\ follows_level I_Boll p (fun v => blLower v) 1 /\
  ignores_level I_Boll p (fun v => blMD v).
Proof.
  intros Hp.
  assert (G : forall c kl, real_candles kl -> forall i, (i < length kl)%nat ->
    mrel c (blUpper (bollF (Z.to_nat (blN p)) kl i)) (blUpper (bollF (Z.to_nat (blN p)) (map (lifted c) kl) i)) /\
    mrel c (blMiddle (bollF (Z.to_nat (blN p)) kl i)) (blMiddle (bollF (Z.to_nat (blN p)) (map (lifted c) kl) i)) /\
    mrel c (blLower (bollF (Z.to_nat (blN p)) kl i)) (blLower (bollF (Z.to_nat (blN p)) (map (lifted c) kl) i)) /\
    blMD (bollF (Z.to_nat (blN p)) (map (lifted c) kl) i) = blMD (bollF (Z.to_nat (blN p)) kl i)).
  { intros c kl Hr i Hi.
    destruct (@C52_exact p kl (nums (fun k => cClose k) kl) Hp (nums_fins _ Hr bar_close)) as (r & E & _ & Q).
    destruct (@C52_exact p (map (lifted c) kl) (nums (fun k => cClose k) (map (lifted c) kl)) Hp (nums_fins _ (lift_real c Hr) bar_close)) as (r' & E' & _ & Q').
    rewrite Boll_T in E, E' by exact Hp. injection E as <-. injection E' as <-. rewrite map_length in Q'.
    specialize (Q i _ (nth_error_tab _ Hi)). specialize (Q' i _ (nth_error_tab _ Hi)). cbn [rVal] in Q, Q'. cbn zeta in Q, Q'.
    rewrite (nums_lift c (fun k => cClose k) bar_close (fun k => eq_refl) Hr), window_map, variance_shift, mean_shift in Q' by (apply win_ne; [lia|unfold nums; now rewrite map_length]).
    destruct Q as (Q1 & Q2 & Q3 & Q4), Q' as (R1 & R2 & R3 & R4). rewrite Q1, Q2, Q3, Q4, R1, R2, R3, R4.
    repeat split; (eexists; split; [reflexivity|]; f_equal; lra). }
  repeat apply conj; [apply follows_F with (G := bollF (Z.to_nat (blN p)))|apply follows_F with (G := bollF (Z.to_nat (blN p)))|apply follows_F with (G := bollF (Z.to_nat (blN p)))|apply ignores_F with (G := bollF (Z.to_nat (blN p)))];
  try (intros kl; now apply Boll_T); intros c kl; [intros Hr i Hi|intros Hr i Hi|intros Hr i Hi|intros i Hr Hi]; now apply G.
Qed.
Print Assumptions C97_Sma.
Print Assumptions C97_Ema.
Print Assumptions C97_TraderXO.
Print Assumptions C97_EMAVegas.
Print Assumptions C97_Atr.
Print Assumptions C97_Keltner.
Print Assumptions C97_Donchian.
Print Assumptions C97_Boll.
