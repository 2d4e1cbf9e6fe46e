(** * PropCrashTa: C91, which arguments crash which function of utils/ta and utils/regression.go.

    Nothing is asked of the values in the slices; slices may have different lengths. *)
From Verif Require Import Base Num Order Lits Ta TaTools TaAvg TaDev TaMore Regression SpecNum SmcProofs Crash CrashTa.
Set Implicit Arguments.
Open Scope Z_scope.

Section P.
Variable N : Num.
Local Notation fl := (list F).
Implicit Types (xs ys hs ls cs : fl) (p q k l r : Z).

(** ** C91 *)
Theorem C91_never xs p (a : F) :
  MultiplyBy xs a <> Panic /\ DivideBy xs a <> Panic /\ AddBy xs a <> Panic /\ Pow xs a <> Panic /\ Nzs xs a <> Panic /\
  Sqrt xs <> Panic /\ Abs xs <> Panic /\ ExtractSign xs <> Panic /\ KeepPositives xs <> Panic /\ KeepNegatives xs <> Panic /\
  RoundDigitsAll xs p <> Panic /\ Ema p xs <> Panic /\ Dema p xs <> Panic /\ Rma p xs <> Panic /\ MA xs p <> Panic /\ Dev xs p <> Panic /\
  AiCoinCCI xs p a <> Panic.
Proof.
  assert (X : forall (r : res fl) P, runs r P False -> r <> Panic) by (intros u P H E; now apply (runs_iff H) in E).
  repeat split; try (eapply X; first [apply g_map1 | now apply r_Nzs | now apply r_Ema | eapply r_Dema; reflexivity | now apply r_Rma | eapply r_AiCoinCCI; reflexivity]).
  - destruct (MA_total xs p) as (? & -> & _). discriminate.
  - destruct (Dev_total xs p) as (? & -> & _). discriminate.
Qed.
Theorem C91_windows xs p q (a : F) :
  (Sma p xs = Panic <-> p < 0 /\ 0 < len xs) /\
  (Sum p xs = Panic <-> p < 0 /\ 0 < len xs) /\
  (ShiftRight p xs = Panic <-> p < 0 /\ 0 < len xs) /\
  (ShiftRightAndFillBy p a xs = Panic <-> p < 0 /\ 0 < len xs) /\
  (Diff xs p = Panic <-> p < 0 /\ 0 < len xs) /\
  (PercentDiff xs p = Panic <-> p < 0) /\
  (Max p xs = Panic <-> p < 0 \/ p = 0 /\ 0 < len xs) /\
  (Min p xs = Panic <-> p < 0 \/ p = 0 /\ 0 < len xs) /\
  (Wma p xs = Panic <-> p <= 0 /\ 0 < len xs \/ len xs + 1 < p) /\
  (CCI xs p q = Panic <-> p <= 0 \/ q < 0 /\ 0 < len xs) /\
  (Variance xs p = Panic <-> p <= 0 \/ len xs < p) /\
  (StdDev xs p a = Panic <-> p <= 0 \/ len xs < p) /\
  (LinearReg xs p = Panic <-> p <= 0 \/ len xs < p) /\
  (LinearRegAngle xs p = Panic <-> p <= 0 \/ len xs < p) /\
  (LinearRegIntercept xs p = Panic <-> p <= 0 \/ len xs < p) /\
  (LinearRegSlope xs p = Panic <-> p <= 0 \/ len xs < p).
Proof.
  assert (H0 : (0 < length xs)%nat <-> 0 < len xs) by (unfold len; lia).
  repeat lazymatch goal with |- _ /\ _ => split end.
  - rewrite (runs_iff (@r_Sma N xs _ eq_refl p)). now rewrite H0.
  - rewrite (runs_iff (@r_Sum N xs _ eq_refl p)). now rewrite H0.
  - rewrite (runs_iff (@r_ShiftRight N xs _ eq_refl p)). now rewrite H0.
  - rewrite (runs_iff (@r_Shift N xs _ eq_refl p a)). now rewrite H0.
  - exact (runs_iff (g_Diff xs p)).
  - exact (runs_iff (g_PercentDiff xs p)).
  - rewrite (runs_iff (@r_Max N xs _ eq_refl p)). now rewrite H0.
  - rewrite (runs_iff (@r_Min N xs _ eq_refl p)). now rewrite H0.
  - rewrite (runs_iff (@r_Wma N xs _ eq_refl p)). rewrite H0. unfold len. tauto.
  - rewrite (runs_iff (@r_CCI N xs _ eq_refl p q)). now rewrite H0.
  - exact (runs_iff (g_Variance xs p)).
  - exact (runs_iff (g_StdDev xs p a)).
  - exact (runs_iff (g_lr _ xs p)).
  - exact (runs_iff (g_lr _ xs p)).
  - exact (runs_iff (g_lr _ xs p)).
  - exact (runs_iff (g_lr _ xs p)).
Qed.
(** functions of several slices *)
Theorem C91_slices xs ys hs ls cs p :
  (Add xs ys = Panic <-> len ys < len xs) /\
  (Subtract xs ys = Panic <-> len ys < len xs) /\
  (Multiply xs ys = Panic <-> len ys < len xs) /\
  (Divide xs ys = Panic <-> len ys < len xs) /\
  (MeanDeviation xs p ys = Panic <-> p <= 0 \/ p <= len xs /\ len ys < len xs) /\
  (TRange hs ls cs = Panic <-> 2 <= len cs /\ (len hs < len cs \/ len ls < len cs)) /\
  (TrueRange hs ls cs = Panic <-> 2 <= len cs /\ (len hs < len cs \/ len ls < len cs)) /\
  (Atr hs ls cs p = Panic <-> 2 <= p /\ len cs <= p \/ 1 <= p /\ 2 <= len cs /\ (len hs < len cs \/ len ls < len cs)) /\
  (Natr hs ls cs p = Panic <-> 2 <= p /\ len cs <= p \/ 1 <= p /\ 2 <= len cs /\ (len hs < len cs \/ len ls < len cs)) /\
  (Stochastic cs hs ls p = Panic <-> p < 0 \/ p = 0 /\ (0 < len hs \/ 0 < len ls) \/ len ls < len cs \/ len ls < len hs \/ len hs < len cs) /\
  (LeastSquare xs ys = Panic <-> len ys < len xs) /\
  (LinearRegressionUsingLeastSquare xs ys = Panic <-> len ys < len xs) /\
  (MovingLeastSquare p xs ys = Panic <-> p < 0 /\ 0 < len xs \/ len ys < len xs) /\
  (MovingLinearRegressionUsingLeastSquare p xs ys = Panic <-> p < 0 /\ 0 < len xs \/ len ys < len xs).
Proof.
  repeat lazymatch goal with |- _ /\ _ => split end.
  - exact (runs_iff (g_map2 _ xs ys)).
  - exact (runs_iff (g_Subtract xs ys)).
  - exact (runs_iff (g_map2 _ xs ys)).
  - exact (runs_iff (g_map2 _ xs ys)).
  - exact (runs_iff (g_MeanDeviation xs p ys)).
  - exact (runs_iff (g_TRange hs ls cs)).
  - exact (runs_iff (g_TrueRange hs ls cs)).
  - rewrite (runs_iff (g_Atr hs ls cs p)). tauto.
  - rewrite (runs_iff (g_Natr hs ls cs p)). tauto.
  - exact (runs_iff (g_Stochastic cs hs ls p)).
  - exact (runs_iff (g_LeastSquare xs ys)).
  - exact (runs_iff (g_LRU xs ys)).
  - rewrite (runs_iff (g_MLS p xs ys)). tauto.
  - rewrite (runs_iff (g_MLRU p xs ys)). tauto.
Qed.
(** functions that look at single places; CrossOver and CrossUnder are the only ones whose crash depends on a value *)
Theorem C91_places xs k l r (s : F) :
  (Highest xs k = Panic <-> xs = []) /\ (Lowest xs k = Panic <-> xs = []) /\
  (PivotHigh xs l r = Panic <-> (l < 0 \/ r < 0) /\ l + r < len xs) /\
  (PivotLow xs l r = Panic <-> (l < 0 \/ r < 0) /\ l + r < len xs) /\
  (PivotMin xs k l r = Panic <-> k < 0 \/ len xs <= k) /\
  (CrossOver xs s = Panic <-> xs = [] \/ exists v, xs = [v] /\ (s <~ v) = true) /\
  (CrossUnder xs s = Panic <-> xs = [] \/ exists v, xs = [v] /\ (v <~ s) = true).
Proof.
  assert (H0 : len xs = 0 <-> xs = []) by (destruct xs; unfold len; cbn [length]; split; (lia || congruence || reflexivity)).
  repeat lazymatch goal with |- _ /\ _ => split end.
  - rewrite (runs_iff (g_Highest xs k)). exact H0.
  - rewrite (runs_iff (g_Lowest xs k)). exact H0.
  - exact (runs_iff (g_pivots xs l r (or_introl eq_refl))).
  - exact (runs_iff (g_pivots xs l r (or_intror eq_refl))).
  - exact (runs_iff (g_PivotMin xs k l r)).
  - rewrite (runs_iff (g_CrossOver xs s)). now rewrite H0.
  - rewrite (runs_iff (g_CrossUnder xs s)). now rewrite H0.
Qed.
End P.
Print Assumptions C91_never.
Print Assumptions C91_windows.
Print Assumptions C91_slices.
Print Assumptions C91_places.
Theorem C91_PivotMax (m : Model) (xs : list (@F (num m))) (k l r : Z) : PivotMax xs k l r = Panic <-> k < 0 \/ len xs <= k.
Proof.
  apply (@runs_iff _ _ (fun _ => True)), g_PivotMax. exact (flt_irrefl (ord_laws m) _).
Qed.
Print Assumptions C91_PivotMax.

Definition crashes {A} (r : res A) : bool := match r with Panic => true | Ok _ => false end.
Example C91_hyp :
  map (fun p => crashes (Wma p (fzs [5; 6; 7]))) [0; 1; 4; 5] = [true; false; false; true] /\
  map (fun p => crashes (StdDev (fzs [5; 6; 7]) p (fz 1))) [0; 1; 3; 4] = [true; false; false; true] /\
  map (fun y => crashes (Add (fzs [5; 6]) y)) [fzs [1]; fzs [1; 2]; fzs [1; 2; 3]] = [true; false; false] /\
  map (fun q => crashes (PivotHigh (fzs [5; 6; 7]) (fst q) (snd q))) [(1, 1); (-1, 4); (-1, 3); (0, 0)] = [false; false; true; false] /\
  map (fun s => crashes (CrossOver (fzs [5]) (fz s))) [4; 5; 6] = [true; false; false].
Proof. repeat split; vm_compute; reflexivity. Qed.
