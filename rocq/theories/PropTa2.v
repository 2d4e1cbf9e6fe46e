(** * Properties C17-C25: ranges, deviations, element-wise functions, causality. *)
From Verif Require Import Base Num B64 XReal Order Ta TaTools TaElem SpecTa RSum TaAvg TaStat TaDev
  TaReg TaOrd TaRange TaCci TaCausal TaMore Lits.
Set Implicit Arguments.

(** ** C17 *)
(** On float64: entry 0 is 0, entry i is a largest of the three candidate ranges,
    whenever none of them is NaN; TrueRange is the same function. *)
Theorem C17_TRange_float (L : MathLib) (hs ls cs : list (@F (B64 L))) :
  (length cs <= length hs)%nat -> (length cs <= length ls)%nat ->
  exists r, TRange hs ls cs = Ok r /\ TrueRange hs ls cs = Ok r /\ length r = length cs /\
    (cs <> [] -> nth 0 r fzero = fzero) /\
    forall i, (S i < length cs)%nat ->
      let h := nth (S i) hs fzero in let l := nth (S i) ls fzero in let pc := nth i cs fzero in
      let cands := [h -~ l; fabs (pc -~ h); fabs (pc -~ l)] in
      no_nan cands -> max_of (nth (S i) r fzero) cands.
Proof. exact (@TRange_float L hs ls cs). Qed.
Print Assumptions C17_TRange_float.

(** In exact arithmetic, as a formula; it is >= 0, and for low <= high the length of
    the smallest interval containing low, high and the previous close. *)
Theorem C17_TRange_exact (hs ls cs : list R) :
  (length cs <= length hs)%nat -> (length cs <= length ls)%nat ->
  TRange (N := XR) (fins hs) (fins ls) (fins cs) =
  Ok (tab (length cs) (fun i => match i with
        | O => Fin 0
        | S j => Fin (true_range (nth i hs 0) (nth i ls 0) (nth j cs 0))%R end)).
Proof. exact (@TRange_exact' hs ls cs). Qed.
Print Assumptions C17_TRange_exact.

Theorem C17_true_range_meaning (h l pc : R) :
  (0 <= true_range h l pc)%R /\ ((l <= h)%R -> true_range h l pc = (Rmax h pc - Rmin l pc)%R).
Proof. exact (conj (@true_range_nonneg h l pc) (@true_range_hull h l pc)). Qed.
Print Assumptions C17_true_range_meaning.

Example C17_hyp : TRange (fzs [5; 6; 9]) (fzs [3; 5; 7]) (fzs [4; 5; 8]) = Ok (fzs [0; 2; 4]) /\
  no_nan [@fsub EX (fz 6) (fz 5); fabs (@fsub EX (fz 4) (fz 6)); fabs (@fsub EX (fz 4) (fz 5))].
Proof. split; [reflexivity|repeat constructor]. Qed.

(** ** C18 *)
(** False as stated: for every period >= 2 and every series no longer than the
    period, Atr panics. *)
Theorem C18_Atr_short_panics_refuted (N : Num) (hs ls cs : list F) (p : Z) :
  2 <= p -> len cs <= p -> Atr hs ls cs p = Panic.
Proof. exact (@Atr_short N hs ls cs p). Qed.
Print Assumptions C18_Atr_short_panics_refuted.

(** What holds: on longer series, or period <= 1, there is one entry per candle, and
    in exact arithmetic every entry is >= 0. *)
Theorem C18_Atr_nonnegative_partial (hs ls cs : list R) (p : Z) :
  (length cs <= length hs)%nat -> (length cs <= length ls)%nat -> p < 2 \/ p < len cs ->
  exists r, Atr (N := XR) (fins hs) (fins ls) (fins cs) p = Ok r /\ length r = length cs /\
    Forall (fun v => exists x, v = Fin x /\ (0 <= x)%R) r.
Proof. exact (@Atr_nonneg hs ls cs p). Qed.
Print Assumptions C18_Atr_nonnegative_partial.

(** Its value: zero before index p, then Wilder's smoothing of the true range. *)
Theorem C18_Atr_wilder (hs ls cs : list R) (p : nat) : (2 <= p)%nat -> (p < length cs)%nat ->
  (length cs <= length hs)%nat -> (length cs <= length ls)%nat ->
  let tr i := match i with O => 0 | S j => true_range (nth i hs 0) (nth i ls 0) (nth j cs 0) end%R in
  exists a : nat -> R,
    Atr (N := XR) (fins hs) (fins ls) (fins cs) (Z.of_nat p) =
      Ok (tab (length cs) (fun i => if (i <? p)%nat then Fin 0 else Fin (a i))) /\
    a p = (((Rsum (tab (p - 1) (fun j => tr (S j))) / INR p) * (INR p - 1) + tr p) / INR p)%R /\
    forall i, (p <= i)%nat -> a (S i) = ((a i * (INR p - 1) + tr (S i)) / INR p)%R.
Proof. exact (@Atr_wilder hs ls cs p). Qed.
Print Assumptions C18_Atr_wilder.

Example C18_hyp : Atr (fzs [5; 6; 9; 9]) (fzs [3; 5; 7; 5]) (fzs [4; 5; 8; 7]) 2 =
    Ok [fz 0; fz 0; fq 5 2; fq 13 4] /\
  Atr (fzs [5; 6]) (fzs [3; 5]) (fzs [4; 5]) 14 = Panic.
Proof. split; reflexivity. Qed.

(** ** C19 *)
Theorem C19_MA_Dev_exact (p : nat) (xs : list R) : (1 <= p)%nat ->
  MA (N := XR) (fins xs) (Z.of_nat p) =
    Ok (tab (length xs) (fun i => if (S i <? p)%nat then Fin 0 else Fin (mean (window xs i p)))) /\
  Dev (N := XR) (fins xs) (Z.of_nat p) =
    Ok (tab (length xs) (fun i => if (S i <? p)%nat then Fin 0 else Fin (mad (window xs i p)))).
Proof. intros H. exact (conj (MA_exact xs H) (Dev_exact xs H)). Qed.
Print Assumptions C19_MA_Dev_exact.

Theorem C19_MA_Dev_shape (N : Num) (p : Z) (xs : list F) :
  (exists r, MA xs p = Ok r /\ length r = length xs) /\ (exists r, Dev xs p = Ok r /\ length r = length xs) /\
  (p <= 0 \/ len xs < p -> MA xs p = Ok (repeat fzero (length xs)) /\ Dev xs p = Ok (repeat fzero (length xs))).
Proof. exact (@MA_Dev_shape N p xs). Qed.
Print Assumptions C19_MA_Dev_shape.

(** CCI with equal periods; a flat window gives NaN (0/0). *)
Theorem C19_CCI_exact (p : nat) (xs : list R) : (1 <= p)%nat ->
  CCI (N := XR) (fins xs) (Z.of_nat p) (Z.of_nat p) =
  Ok (tab (length xs) (fun i => if (S i <? p)%nat then Fin 0 else
        let w := window xs i p in
        if Reqb (mad w) 0 then NaN else Fin ((nth i xs 0 - mean w) / (15 / 1000 * mad w))%R)).
Proof. exact (@CCI_exact p xs). Qed.
Print Assumptions C19_CCI_exact.

(** CCI in general, on any arithmetic. *)
Theorem C19_CCI_formula (N : Num) (p q : nat) (xs : list F) : (1 <= p)%nat ->
  exists ma md, Sma (Z.of_nat q) xs = Ok ma /\ MeanDeviation xs (Z.of_nat p) ma = Ok md /\
    length ma = length xs /\ length md = length xs /\
    CCI xs (Z.of_nat p) (Z.of_nat q) =
    Ok (tab (length xs) (fun i => if (S i <? p)%nat then fzero else
          (nth i xs fzero -~ nth i ma fzero) /~ (lit 15 1000 *~ nth i md fzero))).
Proof. exact (@CCI_formula N p q xs). Qed.
Print Assumptions C19_CCI_formula.

Theorem C19_CCI_nonpositive_period_panics (N : Num) (p q : Z) (xs : list F) : p <= 0 -> CCI xs p q = Panic.
Proof. exact (@CCI_panic N p q xs). Qed.
Print Assumptions C19_CCI_nonpositive_period_panics.

Theorem C19_AiCoinCCI_exact (p : nat) (xs : list R) factor : (1 <= p)%nat ->
  AiCoinCCI (N := XR) (fins xs) (Z.of_nat p) factor =
  Ok (tab (length xs) (fun i => if (S i <? p)%nat then Fin 0 else
        let w := window xs i p in
        if Reqb (mad w) 0 then Fin 0 else Fin ((nth i xs 0 - mean w) / (15 / 1000 * mad w))%R)).
Proof. exact (@AiCoinCCI_exact p xs factor). Qed.
Print Assumptions C19_AiCoinCCI_exact.

Theorem C19_AiCoinCCI_ignores_factor (N : Num) (xs : list F) p f g : AiCoinCCI xs p f = AiCoinCCI xs p g.
Proof. exact (@AiCoinCCI_factor N xs p f g). Qed.
Print Assumptions C19_AiCoinCCI_ignores_factor.

Example C19_hyp : Dev (fzs [1; 3; 5; 5]) 2 = Ok (fzs [0; 1; 1; 0]) /\ MA (fzs [1; 3; 5; 5]) 2 = Ok (fzs [0; 2; 4; 5]) /\
  exists r, AiCoinCCI (fzs [1; 3; 5; 5]) 2 (fz 7) = Ok [fz 0; r; r; fz 0] /\ r = @fdiv EX (fz 1) (@lit EX 15 1000).
Proof. split; [vm_compute; reflexivity|split; [vm_compute; reflexivity|]]. exists (@fdiv EX (fz 1) (@lit EX 15 1000)). split; vm_compute; reflexivity. Qed.

(** ** C20 *)
(** [zipWith f xs ys] (TaElem.v) is the list of f x_i y_i. *)
Theorem C20_one_slice (N : Num) (xs : list F) (m : F) (d : Z) :
  MultiplyBy xs m = Ok (map (fun v => v *~ m) xs) /\
  DivideBy xs m = Ok (map (fun v => v *~ (ofZ 1 /~ m)) xs) /\
  AddBy xs m = Ok (map (fun v => v +~ m) xs) /\
  Pow xs m = Ok (map (fun v => fpow v m) xs) /\
  Abs xs = Ok (map fabs xs) /\ Sqrt xs = Ok (map fsqrt xs) /\
  ExtractSign xs = Ok (map (fun v => if ofZ 0 <=~ v then ofZ 1 else ofZ (-1)) xs) /\
  KeepPositives xs = Ok (map (fun v => if ofZ 0 <~ v then v else ofZ 0) xs) /\
  KeepNegatives xs = Ok (map (fun v => if v <~ ofZ 0 then v else ofZ 0) xs) /\
  RoundDigitsAll xs d = Ok (map (fun v => fround (v *~ fpow (ofZ 10) (ofZ d)) /~ fpow (ofZ 10) (ofZ d)) xs) /\
  Nzs xs m = Ok (map (fun v => if isNaN v then m else v) xs).
Proof. exact (@one_slice N xs m d). Qed.
Print Assumptions C20_one_slice.

Theorem C20_two_slices (N : Num) (xs ys r : list F) :
  (Add xs ys = Ok r <-> (length xs <= length ys)%nat /\ r = zipWith fadd xs ys) /\
  (Multiply xs ys = Ok r <-> (length xs <= length ys)%nat /\ r = zipWith fmul xs ys) /\
  (Subtract xs ys = Ok r <-> (length xs <= length ys)%nat /\ r = zipWith (fun a b => a +~ b *~ ofZ (-1)) xs ys) /\
  (Divide xs ys = Ok r <-> (length xs <= length ys)%nat /\
     r = zipWith (fun a b => if isNaN (a /~ b) || isInf (a /~ b) then fzero else a /~ b) xs ys).
Proof. exact (@two_slices N xs ys r). Qed.
Print Assumptions C20_two_slices.

(** In exact arithmetic Subtract subtracts. *)
Theorem C20_Subtract_exact (xs ys : list R) : (length xs <= length ys)%nat ->
  Subtract (N := XR) (fins xs) (fins ys) = Ok (tab (length xs) (fun i => Fin (nth i xs 0 - nth i ys 0)%R)).
Proof. exact (@Subtract_exact xs ys). Qed.
Print Assumptions C20_Subtract_exact.

Example C20_hyp : Subtract (fzs [5; 6]) (fzs [3; 8; 1]) = Ok (fzs [2; -2]) /\ Add (fzs [1; 2]) (fzs [1]) = Panic /\
  ExtractSign (fzs [5; 0; -6]) = Ok (fzs [1; 1; -1]).
Proof. repeat split; reflexivity. Qed.

(** ** C21 *)
Theorem C21_Divide_finite (L : MathLib) (xs ys r : list (@F (B64 L))) :
  Divide xs ys = Ok r -> Forall (fun v => isNaN v = false /\ isInf v = false) r.
Proof. exact (@Divide_finite (B64 L) xs ys r (B64_zero_finite L)). Qed.
Print Assumptions C21_Divide_finite.

Example C21_hyp : Divide (fzs [5; 0; -6; 9]) (fzs [0; 0; 2; 2]) = Ok [fz 0; fz 0; fz (-3); fq 9 2].
Proof. reflexivity. Qed.

(** ** C22 *)
Theorem C22_Shift (N : Num) (p : Z) (fill : F) (xs : list F) :
  (0 <= p -> ShiftRightAndFillBy p fill xs =
     Ok (tab (length xs) (fun i => if (i <? Z.to_nat p)%nat then fill else nth (i - Z.to_nat p) xs fzero))) /\
  ShiftRight p xs = ShiftRightAndFillBy p (ofZ 0) xs /\
  (ShiftRightAndFillBy p fill xs = Panic <-> p < 0 /\ xs <> []).
Proof. exact (@Shift_all N p fill xs). Qed.
Print Assumptions C22_Shift.

Theorem C22_Diff_exact (b : nat) (xs : list R) :
  Diff (N := XR) (fins xs) (Z.of_nat b) =
  Ok (tab (length xs) (fun i => Fin (if (i <? b)%nat then nth i xs 0 else nth i xs 0 - nth (i - b) xs 0)%R)).
Proof. exact (@Diff_exact b xs). Qed.
Print Assumptions C22_Diff_exact.

Theorem C22_PercentDiff (N : Num) (b : Z) (xs : list F) :
  (0 <= b -> PercentDiff xs b = Ok (tab (length xs) (fun i =>
     if (i <? Z.to_nat b)%nat then fzero
     else (nth i xs fzero -~ nth (i - Z.to_nat b) xs fzero) /~ nth (i - Z.to_nat b) xs fzero))) /\
  (b < 0 -> PercentDiff xs b = Panic).
Proof. exact (conj (@PercentDiff_ok N xs b) (@PercentDiff_neg N xs b)). Qed.
Print Assumptions C22_PercentDiff.

Example C22_hyp : Diff (fzs [5; 7; 4]) 1 = Ok (fzs [5; 2; -3]) /\ ShiftRight 2 (fzs [5; 7; 4]) = Ok (fzs [0; 0; 5]) /\
  PercentDiff (fzs [4; 6; 3]) 1 = Ok [fz 0; fq 1 2; fq (-1) 2].
Proof. repeat split; reflexivity. Qed.

(** ** C23 *)
Theorem C23_Cross (N : Num) (xs : list F) (s : F) : (2 <= length xs)%nat ->
  let cur := nth (length xs - 1) xs fzero in let prev := nth (length xs - 2) xs fzero in
  CrossOver xs s = Ok ((s <~ cur) && (prev <~ s)) /\ CrossUnder xs s = Ok ((cur <~ s) && (s <~ prev)).
Proof. intros H. exact (conj (CrossOver_spec xs s H) (CrossUnder_spec xs s H)). Qed.
Print Assumptions C23_Cross.

Theorem C23_never_both (L : MathLib) (xs : list (@F (B64 L))) (s : @F (B64 L)) :
  ~ (CrossOver xs s = Ok true /\ CrossUnder xs s = Ok true).
Proof. exact (@Cross_never_both L xs s). Qed.
Print Assumptions C23_never_both.

(** Fewer than two values: an empty slice always panics; with one value the second
    operand of && is read only if the first comparison succeeds, and then panics. *)
Theorem C23_short (N : Num) (x s : F) :
  CrossOver [] s = Panic /\ CrossUnder [] s = Panic /\
  CrossOver [x] s = (if s <~ x then Panic else Ok false) /\
  CrossUnder [x] s = (if x <~ s then Panic else Ok false).
Proof. exact (conj (proj1 (Cross_empty s)) (conj (proj2 (Cross_empty s)) (Cross_one x s))). Qed.
Print Assumptions C23_short.

Example C23_hyp : CrossOver (fzs [9; 2; 4]) (fz 3) = Ok true /\ CrossUnder (fzs [9; 4; 2]) (fz 3) = Ok true /\
  CrossOver (fzs [9; 3; 4]) (fz 3) = Ok false.
Proof. repeat split; reflexivity. Qed.

(** ** C24 *)
(** [causal f]: if f succeeds on a series and on an extension of it, the first
    result is a prefix of the second.  For every float arithmetic, so bit for bit. *)
Theorem C24_one_series (N : Num) (p q l r : Z) (c : F) (out : F -> F) :
  causal (Sma p) /\ causal (Ema p) /\ causal (Dema p) /\ causal (Rma p) /\ causal (Sum p) /\
  causal (Max p) /\ causal (Min p) /\ causal (fun xs => MA xs p) /\ causal (fun xs => Dev xs p) /\
  causal (Wma p) /\ causal (fun xs => Variance xs p) /\ causal (fun xs => StdDev xs p c) /\
  causal (fun xs => LinearReg xs p) /\ causal (fun xs => LinearRegSlope xs p) /\
  causal (fun xs => LinearRegIntercept xs p) /\ causal (fun xs => LinearRegAngle xs p) /\
  causal (ShiftRightAndFillBy p c) /\ causal (fun xs => Diff xs p) /\ causal (fun xs => PercentDiff xs p) /\
  causal (fun xs => PivotHigh xs l r) /\ causal (fun xs => PivotLow xs l r) /\
  causal (fun xs => CCI xs p q) /\ causal (fun xs => AiCoinCCI xs p c) /\ causal (map1 out).
Proof. exact (@one_series_causal N p q l r c out). Qed.
Print Assumptions C24_one_series.

(** Several series, each extended. *)
Theorem C24_several_series (N : Num) (p : Z) (hs hs' ls ls' cs cs' : list F) (f : F -> F -> F) :
  prefix hs hs' -> prefix ls ls' -> prefix cs cs' ->
  (forall r r', TRange hs ls cs = Ok r -> TRange hs' ls' cs' = Ok r' -> prefix r r') /\
  (forall r r', Atr hs ls cs p = Ok r -> Atr hs' ls' cs' p = Ok r' -> prefix r r') /\
  (forall r r', Natr hs ls cs p = Ok r -> Natr hs' ls' cs' p = Ok r' -> prefix r r') /\
  (forall k d k' d', Stochastic cs hs ls p = Ok (k, d) -> Stochastic cs' hs' ls' p = Ok (k', d') ->
     prefix k k' /\ prefix d d') /\
  (forall r r', Add hs ls = Ok r -> Add hs' ls' = Ok r' -> prefix r r') /\
  (forall r r', Subtract hs ls = Ok r -> Subtract hs' ls' = Ok r' -> prefix r r') /\
  (forall r r', Multiply hs ls = Ok r -> Multiply hs' ls' = Ok r' -> prefix r r') /\
  (forall r r', Divide hs ls = Ok r -> Divide hs' ls' = Ok r' -> prefix r r').
Proof. exact (@several_series_causal N p hs hs' ls ls' cs cs'). Qed.
Print Assumptions C24_several_series.

Example C24_hyp : Max 2 (fzs [1; 5; 2]) = Ok (fzs [1; 5; 5]) /\ Max 2 (fzs ([1; 5; 2] ++ [9; 0])) = Ok (fzs [1; 5; 5; 9; 9]) /\
  (exists v, Natr (fzs [5; 6; 9]) (fzs [3; 5; 7]) (fzs [4; 5; 8]) 2 = Ok [fz 0; fz 0; v]).
Proof. split; [reflexivity|split; [reflexivity|]]. eexists; reflexivity. Qed.

(** ** C25 *)
(** In exact arithmetic; [stoch_k] is the position of the close in the window's
    range in percent, 0 when the range is empty. *)
Theorem C25_Stochastic (cs hs ls : list R) (p : nat) :
  (1 <= p)%nat -> length hs = length cs -> length ls = length cs ->
  (forall i, (i < length cs)%nat -> (nth i ls 0 <= nth i cs 0 <= nth i hs 0)%R) ->
  exists k d : nat -> R,
    Stochastic (N := XR) (fins cs) (fins hs) (fins ls) (Z.of_nat p) =
      Ok (tab (length cs) (fun i => Fin (k i)), tab (length cs) (fun i => Fin (d i))) /\
    forall i, (i < length cs)%nat ->
      (0 <= k i <= 100)%R /\ (0 <= d i <= 100)%R /\
      (let hh := rmax (window hs i p) in let ll := rmin (window ls i p) in
       (hh = ll -> k i = 0)%R /\ (hh <> ll -> k i = (nth i cs 0 - ll) / (hh - ll) * 100)%R).
Proof. exact (@Stochastic_bounds cs hs ls p). Qed.
Print Assumptions C25_Stochastic.

Example C25_hyp : exists k d, Stochastic (fzs [4; 5; 8]) (fzs [5; 6; 9]) (fzs [3; 4; 7]) 2 = Ok (k, d) /\
  nth 0 k fzero = fz 50 /\ nth 2 k fzero = fz 80.
Proof. do 2 eexists. split; [reflexivity|split; reflexivity]. Qed.
