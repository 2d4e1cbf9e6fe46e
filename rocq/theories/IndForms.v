(** * IndForms: index-wise closed forms of the indicator rows (any float arithmetic).

    A series of length n is written [tab n f] with [f : nat -> F]. *)
From Verif Require Import Base Num Order Containers Ta TaTools TaElem TaAvg TaOrd TaRange SpecTa Sides Klines
  KlineProofs3 IndBase IndTrend IndChannel IndVolume IndOsc IndAll IndTools.
Set Implicit Arguments.

Section T.
Context {N : Num}.
Local Notation fl := (list F).

(** ** Series *)
Lemma tabmap A B (g : A -> B) n (f : nat -> A) : map g (tab n f) = tab n (fun i => g (f i)).
Proof. unfold tab. now rewrite map_map. Qed.
Lemma len_tab A n (f : nat -> A) : len (tab n f) = Z.of_nat n.
Proof. unfold len. now rewrite tab_length. Qed.
Lemma get_tab A n (f : nat -> A) i : (i < n)%nat -> get (tab n f) (Z.of_nat i) = Ok (f i).
Proof. intros H. apply get_ok_iff. rewrite Nat2Z.id. split; [lia|now apply tab_nth_error]. Qed.
Lemma get_tabp A n (f : nat -> A) i : (0 < i <= n)%nat -> get (tab n f) (Z.of_nat i - 1) = Ok (f (pred i)).
Proof. intros H. replace (Z.of_nat i - 1) with (Z.of_nat (pred i)) by lia. apply get_tab. lia. Qed.
Lemma map1_T g n f : map1 g (tab n f) = Ok (tab n (fun i => g (f i))).
Proof. rewrite map1_ok. now rewrite tabmap. Qed.
Lemma map2_T g n f h : map2 g (tab n f) (tab n h) = Ok (tab n (fun i => g (f i) (h i))).
Proof.
  rewrite map2_ok by (rewrite !tab_length; lia). f_equal.
  rewrite (@zipWith_tab N g _ _ fzero) by (rewrite !tab_length; lia). rewrite tab_length. apply tab_ext. intros k Hk.
  now rewrite !tab_nth.
Qed.
Lemma MultiplyBy_T m n f : MultiplyBy (tab n f) m = Ok (tab n (fun i => f i *~ m)).
Proof. apply map1_T. Qed.
Lemma DivideBy_T m n f : DivideBy (tab n f) m = Ok (tab n (fun i => f i *~ (ofZ 1 /~ m))).
Proof. apply map1_T. Qed.
Lemma AddBy_T m n f : AddBy (tab n f) m = Ok (tab n (fun i => f i +~ m)).
Proof. apply map1_T. Qed.
Lemma Pow_T m n f : Pow (tab n f) m = Ok (tab n (fun i => fpow (f i) m)).
Proof. apply map1_T. Qed.
Lemma Sqrt_T n f : Sqrt (tab n f) = Ok (tab n (fun i => fsqrt (f i))).
Proof. apply map1_T. Qed.
Lemma Add_T n f h : Add (tab n f) (tab n h) = Ok (tab n (fun i => f i +~ h i)).
Proof. apply map2_T. Qed.
Lemma Multiply_T n f h : Multiply (tab n f) (tab n h) = Ok (tab n (fun i => f i *~ h i)).
Proof. apply map2_T. Qed.
Lemma Divide_T n f h : Divide (tab n f) (tab n h) = Ok (tab n (fun i => div_clean (f i) (h i))).
Proof. apply map2_T. Qed.
Lemma Subtract_T n f h : Subtract (tab n f) (tab n h) = Ok (tab n (fun i => f i +~ h i *~ ofZ (-1))).
Proof. unfold Subtract. rewrite MultiplyBy_T. cbn [bind]. apply Add_T. Qed.
Lemma Nzs_T r n f : Nzs (tab n f) r = Ok (tab n (fun i => Nz (f i) r)).
Proof. rewrite Nzs_ok. now rewrite tabmap. Qed.
Definition sgnF (v : F) : F := if v >=~ ofZ 0 then ofZ 1 else ofZ (-1).
Lemma Shift_T p fill n f : 0 <= p -> ShiftRightAndFillBy p fill (tab n f) =
  Ok (tab n (fun i => if (i <? Z.to_nat p)%nat then fill else f (i - Z.to_nat p)%nat)).
Proof.
  intros H. rewrite Shift_ok by exact H. rewrite tab_length. f_equal. apply tab_ext. intros i Hi. unfold shifted.
  destruct (i <? Z.to_nat p)%nat; [reflexivity|]. apply tab_nth. lia.
Qed.
Lemma Diff_T b n f : 0 <= b -> Diff (tab n f) b =
  Ok (tab n (fun i => f i +~ (if (i <? Z.to_nat b)%nat then ofZ 0 else f (i - Z.to_nat b)%nat) *~ ofZ (-1))).
Proof. intros H. unfold Diff, ShiftRight. rewrite Shift_T by exact H. cbn [bind]. apply Subtract_T. Qed.

(** exponential and running sums of a function *)
Fixpoint emaF (p : Z) (f : nat -> F) (i : nat) : F :=
  match i with
  | O => f 0%nat
  | S i' => (ofZ 2 *~ f i +~ ofZ (p - 1) *~ emaF p f i') /~ ofZ (p + 1)
  end.
Lemma emaS_T p n f i : (i < n)%nat -> emaS p (tab n f) i = emaF p f i.
Proof.
  induction i as [|i IH]; intros Hi; cbn [emaS emaF].
  - now apply tab_nth.
  - rewrite IH by lia. rewrite tab_nth by lia. reflexivity.
Qed.
Lemma Ema_T p n f : Ema p (tab n f) = Ok (tab n (emaF p f)).
Proof. rewrite Ema_gen, tab_length. f_equal. apply tab_ext. intros. now apply emaS_T. Qed.
Lemma emaF_ext p f g i : (forall k, (k <= i)%nat -> f k = g k) -> emaF p f i = emaF p g i.
Proof. induction i as [|i IH]; intros H; cbn [emaF]; [now apply H|]. rewrite IH, H; auto. Qed.
Fixpoint runF (p : nat) (f : nat -> F) (i : nat) : F :=
  match i with
  | O => fzero
  | S i' => let s := runF p f i' +~ f i' in
            if (p <=? i')%nat then s -~ f (i' - p)%nat else s
  end.
Lemma runSum_T p n f i : (i <= n)%nat -> runSum p (tab n f) i = runF p f i.
Proof.
  induction i as [|i IH]; intros Hi; cbn [runSum runF]; [reflexivity|].
  rewrite IH by lia. rewrite !tab_nth by lia. reflexivity.
Qed.
Lemma Sum_T p n f : 0 <= p -> Sum p (tab n f) = Ok (tab n (fun i => runF (Z.to_nat p) f (S i))).
Proof.
  intros H. replace p with (Z.of_nat (Z.to_nat p)) at 1 by lia. rewrite Sum_gen, tab_length. f_equal.
  apply tab_ext. intros. apply runSum_T. lia.
Qed.
Definition smaF (p : nat) (f : nat -> F) (i : nat) : F :=
  sma_clean (runF p f (S i) /~ ofZ (if (p <=? i)%nat then Z.of_nat p else Z.of_nat i + 1)).
Lemma Sma_T p n f : 0 <= p -> Sma p (tab n f) = Ok (tab n (smaF (Z.to_nat p) f)).
Proof.
  intros H. replace p with (Z.of_nat (Z.to_nat p)) at 1 by lia. rewrite Sma_gen, tab_length. f_equal.
  apply tab_ext. intros i Hi. unfold sma_out, smaF. now rewrite runSum_T by lia.
Qed.
Lemma Rma_T p n f : exists g, Rma p (tab n f) = Ok (tab n g).
Proof. eexists. rewrite Rma_gen, tab_length. reflexivity. Qed.

(** ** Candles *)
Definition cn (kl : list Candle) (i : nat) : Candle := nth i kl (blank 0).
Definition tm (kl : list Candle) (i : nat) : Z := unix (cTime (cn kl i)).
Definition OH kl := mkOHLC (tab (length kl) (fun i => cOpen (cn kl i))) (tab (length kl) (fun i => cHigh (cn kl i)))
  (tab (length kl) (fun i => cLow (cn kl i))) (tab (length kl) (fun i => cClose (cn kl i)))
  (tab (length kl) (fun i => cVolume (cn kl i))) (tab (length kl) (fun i => cBull (cn kl i)))
  (tab (length kl) (fun i => cTime (cn kl i))).
Lemma cmap A (g : Candle -> A) kl : map g kl = tab (length kl) (fun i => g (cn kl i)).
Proof. apply tab_map. Qed.
Lemma OHLC_T kl : GetOHLC kl = Ok (OH kl).
Proof. rewrite GetOHLC_spec. unfold OH. now rewrite !cmap. Qed.
Lemma cn_some kl i c : nth_error kl i = Some c -> cn kl i = c.
Proof. intros H. unfold cn. now apply nth_error_nth. Qed.
Lemma time_at_T kl i : (i < length kl)%nat -> time_at kl (Z.of_nat i) = Ok (tm kl i).
Proof. intros H. unfold time_at. rewrite (@get_nat _ kl i (blank 0)) by exact H. reflexivity. Qed.
Lemma time_in_T kl i : (i < length kl)%nat -> time_in (tab (length kl) (fun i => cTime (cn kl i))) (Z.of_nat i) = Ok (tm kl i).
Proof. intros H. unfold time_in. rewrite get_tab by exact H. reflexivity. Qed.

(** ** Rows *)
Lemma append_rows_T A kl tmf n f (g : nat -> A) d : n = length kl ->
  (forall i, (i < length kl)%nat -> tmf (Z.of_nat i) = Ok (tm kl i)) ->
  (forall i, (i < length kl)%nat -> f (Z.of_nat i) = Ok (g i)) ->
  append_rows tmf (Z.of_nat n) f d = Ok (d ++ tab (length kl) (fun i => mkRow (tm kl i) (g i))).
Proof.
  intros -> Ht Hf. unfold append_rows. change 0 with (Z.of_nat 0).
  apply (@for_nat _ (fun i => d ++ tab i (fun i => mkRow (tm kl i) (g i)))); [lia|cbn; now rewrite app_nil_r|].
  intros i Hi. rewrite Ht, Hf by lia. cbn [bind]. now rewrite tab_S, app_assoc.
Qed.
Lemma make_rows_T A (z : A) kl size tmf n f (g : nat -> A) : size = length kl -> n = length kl ->
  (forall i, (i < length kl)%nat -> tmf (Z.of_nat i) = Ok (tm kl i)) ->
  (forall i, (i < length kl)%nat -> f (Z.of_nat i) = Ok (g i)) ->
  make_rows z (Z.of_nat size) tmf 0 (Z.of_nat n) f = Ok (tab (length kl) (fun i => mkRow (tm kl i) (g i))).
Proof.
  intros -> -> Ht Hf. unfold make_rows. change (Z.of_nat (length kl)) with (len kl) at 1. rewrite make_len. cbn [bind].
  change (Z.of_nat (length kl)) with (len kl). apply fill_loop0.
  intros i Hi. rewrite Ht, Hf by lia. cbn [bind]. apply partial_set; [lia|reflexivity].
Qed.
Lemma values_T A (f : A -> F) n (g : nat -> row A) : values f (tab n g) = Ok (tab n (fun i => f (rVal (g i)))).
Proof. rewrite values_spec. now rewrite tabmap. Qed.
End T.

Ltac T_steps := repeat (first
  [ rewrite OHLC_T | rewrite MultiplyBy_T | rewrite DivideBy_T | rewrite AddBy_T | rewrite Pow_T | rewrite Sqrt_T
  | rewrite Add_T | rewrite Multiply_T | rewrite Divide_T | rewrite Subtract_T | rewrite Nzs_T | rewrite Ema_T
  | rewrite Sum_T by lia | rewrite Sma_T by lia | rewrite Shift_T by lia | rewrite Diff_T by lia | rewrite values_T ];
  cbn [bind oOpen oHigh oLow oClose oVolume oBull oTime OH]).
(** the final loop that builds the rows *)
Tactic Notation "T_start" reference(I) reference(calc) :=
  unfold rows_of, GetData, I; cbn [len length Z.of_nat Z.eqb Calculation Val Param]; unfold calc; T_steps.
Ltac T_get := intros; rewrite ?get_tab by lia; cbn [bind]; rewrite ?get_tab by lia; cbn [bind]; try reflexivity.
Ltac T_append g0 := unfold len; rewrite ?tab_length; rewrite (@append_rows_T _ _ _ _ _ _ g0 _ eq_refl); [reflexivity|..];
  [intros; first [now apply time_at_T | now apply time_in_T] | T_get].
Ltac T_make g0 := unfold len; rewrite ?tab_length;
  rewrite (@make_rows_T _ _ _ _ _ _ _ _ g0 eq_refl eq_refl); [reflexivity|..];
  [intros; first [now apply time_at_T | now apply time_in_T] | T_get].

Section Forms.
Context {N : Num}.
Local Notation C kl := (fun i => cClose (cn kl i)).
Local Notation H kl := (fun i => cHigh (cn kl i)).
Local Notation L kl := (fun i => cLow (cn kl i)).
Local Notation V kl := (fun i => cVolume (cn kl i)).
Local Notation rows kl g := (Ok (tab (length kl) (fun i => mkRow (tm kl i) (g i)))).

Definition difF p kl i := emaF (mShort p) (C kl) i +~ emaF (mLong p) (C kl) i *~ ofZ (-1).
Lemma Macd_T p kl : rows_of I_Macd p kl =
  rows kl (fun i => mkMacdV (difF p kl i) (emaF (mSignal p) (difF p kl) i) ((difF p kl i -~ emaF (mSignal p) (difF p kl) i) *~ ofZ 2)).
Proof.
  T_start I_Macd macd_calc.
  T_make (fun i => mkMacdV (difF p kl i) (emaF (mSignal p) (difF p kl) i) ((difF p kl i -~ emaF (mSignal p) (difF p kl) i) *~ ofZ 2)).
Qed.

(** one-value rows *)
Lemma Ma_T p kl : 0 <= p -> rows_of I_Ma p kl = rows kl (smaF (Z.to_nat p) (C kl)).
Proof. intros Hp. T_start I_Ma ma_calc. T_append (smaF (Z.to_nat p) (C kl)). Qed.
Lemma Sma_ind_T p kl : 0 <= p -> rows_of I_Sma p kl = rows kl (smaF (Z.to_nat p) (C kl)).
Proof. intros Hp. T_start I_Sma sma_calc. T_make (smaF (Z.to_nat p) (C kl)). Qed.
Lemma Ema_ind_T p kl : rows_of I_Ema p kl = rows kl (emaF p (C kl)).
Proof. T_start I_Ema ema_calc. T_make (emaF p (C kl)). Qed.
Definition apoF p kl i := emaF (fsFast p) (C kl) i +~ emaF (fsSlow p) (C kl) i *~ ofZ (-1).
Lemma APO_T p kl : rows_of I_APO p kl = rows kl (apoF p kl).
Proof. T_start I_APO apo_calc. T_make (apoF p kl). Qed.
Definition medF kl i := (cLow (cn kl i) +~ cHigh (cn kl i)) *~ (ofZ 1 /~ ofZ 2).
Definition aoF kl i := emaF 5 (medF kl) i +~ emaF 34 (medF kl) i *~ ofZ (-1).
Lemma AO_T kl : rows_of I_AO tt kl = rows kl (aoF kl).
Proof. T_start I_AO ao_calc. T_append (aoF kl). Qed.
Definition ppoF p kl i := div_clean (emaF (poFast p) (C kl) i +~ emaF (poSlow p) (C kl) i *~ ofZ (-1)) (emaF (poSlow p) (C kl) i) *~ ofZ 100.
Definition ppoG p kl i := let s := emaF (poSignal p) (ppoF p kl) i in mkPPOV (ppoF p kl i) s (ppoF p kl i +~ s *~ ofZ (-1)).
Lemma PPO_T p kl : rows_of I_PPO p kl = rows kl (ppoG p kl).
Proof. T_start I_PPO ppo_calc. T_append (ppoG p kl). Qed.
Definition volF kl i := Nz (cVolume (cn kl i)) (ofZ 0).
Definition voscF p kl i := div_clean (emaF (fsFast p) (volF kl) i +~ emaF (fsSlow p) (volF kl) i *~ ofZ (-1)) (emaF (fsSlow p) (volF kl) i) *~ ofZ 100.
Lemma VOsc_T p kl : rows_of I_VOsc p kl = rows kl (voscF p kl).
Proof. T_start I_VOsc vosc_calc. T_make (voscF p kl). Qed.
Definition forceF kl i := (C kl i +~ (if (i <? Z.to_nat 1)%nat then ofZ 0 else C kl (i - Z.to_nat 1)%nat) *~ ofZ (-1)) *~ V kl i.
Lemma Force_T p kl : rows_of I_Force p kl = rows kl (emaF p (forceF kl)).
Proof. T_start I_Force force_calc. T_append (emaF p (forceF kl)). Qed.
Definition midF kl i := (cHigh (cn kl i) +~ cLow (cn kl i)) *~ (ofZ 1 /~ ofZ 2).
Definition emvF kl i :=
  div_clean (midF kl i +~ (if (i <? Z.to_nat 1)%nat then ofZ 0 else midF kl (i - Z.to_nat 1)%nat) *~ ofZ (-1))
    (div_clean (V kl i *~ (ofZ 1 /~ ofZ 100000000)) (H kl i +~ L kl i *~ ofZ (-1))).
Lemma EMV_T p kl : 0 <= p -> rows_of I_EMV p kl = rows kl (smaF (Z.to_nat p) (emvF kl)).
Proof. intros Hp. T_start I_EMV emv_calc. T_append (smaF (Z.to_nat p) (emvF kl)). Qed.
Definition cmfM kl i := div_clean ((C kl i +~ L kl i *~ ofZ (-1)) +~ (H kl i +~ C kl i *~ ofZ (-1)) *~ ofZ (-1)) (H kl i +~ L kl i *~ ofZ (-1)) *~ V kl i.
Definition cmfF p kl i := div_clean (runF p (cmfM kl) (S i)) (runF p (V kl) (S i)).
Lemma CMF_T p kl : 0 <= p -> rows_of I_CMF p kl = rows kl (cmfF (Z.to_nat p) kl).
Proof. intros Hp. T_start I_CMF cmf_calc. T_append (cmfF (Z.to_nat p) kl). Qed.
Definition vwmaF p kl i := div_clean (runF p (fun i => C kl i *~ V kl i) (S i)) (runF p (V kl) (S i)).
Lemma Vwma_T p kl : 0 <= p -> rows_of I_Vwma p kl = rows kl (vwmaF (Z.to_nat p) kl).
Proof. intros Hp. T_start I_Vwma vwma_calc. T_append (vwmaF (Z.to_nat p) kl). Qed.
Lemma TraderXO_T p kl : rows_of I_TraderXO p kl = rows kl (fun i => mkXOV (emaF (xFastP p) (C kl) i) (emaF (xSlowP p) (C kl) i)).
Proof. T_start I_TraderXO traderxo_calc. T_make (fun i => mkXOV (emaF (xFastP p) (C kl) i) (emaF (xSlowP p) (C kl) i)). Qed.
Definition vegasF p kl i := mkVegasV (emaF (vgP p) (C kl) i) (emaF (vgS1 p) (C kl) i) (emaF (vgS2 p) (C kl) i) (emaF (vgL1 p) (C kl) i) (emaF (vgL2 p) (C kl) i).
Lemma EMAVegas_T p kl : rows_of I_EMAVegas p kl = rows kl (vegasF p kl).
Proof. T_start I_EMAVegas vegas_calc. T_make (vegasF p kl). Qed.
End Forms.
