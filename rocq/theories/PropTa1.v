(** * Properties C04-C16: extrema, averages, statistics and regression of utils/ta. *)
From Verif Require Import Base Num B64 XReal Order Ta TaTools TaElem SpecTa RSum TaAvg TaStat TaDev
  Regression TaReg TaOrd TaPivot TaRange Lits.
Set Implicit Arguments.

(** ** C04 *)
(** Entry i of Max is a largest value among the last min(i+1,period) ones. *)
Theorem C04_Max_is_window_maximum (L : MathLib) (p : nat) (xs : list (@F (B64 L))) :
  (1 <= p)%nat -> no_nan xs ->
  exists r, Max (Z.of_nat p) xs = Ok r /\ length r = length xs /\
    forall i, (i < length xs)%nat -> max_of (nth i r fzero) (window xs i p).
Proof. exact (@Max_spec _ (B64_ord L) p xs). Qed.
Print Assumptions C04_Max_is_window_maximum.

Theorem C04_Min_is_window_minimum (L : MathLib) (p : nat) (xs : list (@F (B64 L))) :
  (1 <= p)%nat -> no_nan xs ->
  exists r, Min (Z.of_nat p) xs = Ok r /\ length r = length xs /\
    forall i, (i < length xs)%nat -> min_of (nth i r fzero) (window xs i p).
Proof. exact (@Min_spec _ (B64_ord L) p xs). Qed.
Print Assumptions C04_Min_is_window_minimum.

(** The calls panic exactly for a negative period, or period 0 on non-empty input. *)
Theorem C04_panics_iff (L : MathLib) (p : Z) (xs : list (@F (B64 L))) : no_nan xs ->
  (Max p xs = Panic <-> p < 0 \/ (p = 0 /\ xs <> [])) /\
  (Min p xs = Panic <-> p < 0 \/ (p = 0 /\ xs <> [])).
Proof.
  intros H. destruct (Z.lt_trichotomy p 0) as [Hp|[->|Hp]].
  - unfold Max, Min. rewrite !moving_neg by exact Hp. tauto.
  - destruct xs as [|x xs].
    + unfold Max, Min. rewrite !moving_nil by lia.
      split; (split; [discriminate|intros [?|[_ ?]]; [lia|congruence]]).
    + unfold Max, Min. rewrite !moving_zero by discriminate.
      split; (split; [intros _; right; split; [reflexivity|discriminate]|reflexivity]).
  - destruct (@Max_spec _ (B64_ord L) (Z.to_nat p) xs ltac:(lia) H) as (r & E & _).
    destruct (@Min_spec _ (B64_ord L) (Z.to_nat p) xs ltac:(lia) H) as (r' & E' & _).
    rewrite Z2Nat.id in E, E' by lia. rewrite E, E'. split; (split; [discriminate|lia]).
Qed.
Print Assumptions C04_panics_iff.

Example C04_hyp : no_nan (fzs [1; 2; 4; 3; 1]) /\
  Max 2 (fzs [1; 2; 4; 3; 1]) = Ok (fzs [1; 2; 4; 4; 3]) /\
  Min 2 (fzs [1; 2; 4; 3; 1]) = Ok (fzs [1; 1; 2; 3; 1]).
Proof. split; [repeat constructor|split; reflexivity]. Qed.

(** ** C05 *)
Theorem C05_Highest_Lowest (L : MathLib) (xs : list (@F (B64 L))) (n : Z) :
  xs <> [] -> no_nan xs ->
  (exists m, Highest xs n = Ok m /\ max_of m (lastn xs n)) /\
  (exists m, Lowest xs n = Ok m /\ min_of m (lastn xs n)).
Proof. intros H1 H2. exact (conj (@Highest_spec _ (B64_ord L) xs n H1 H2) (@Lowest_spec _ (B64_ord L) xs n H1 H2)). Qed.
Print Assumptions C05_Highest_Lowest.

Theorem C05_empty_panics (N : Num) (n : Z) :
  Highest (@nil F) n = Panic /\ Lowest (@nil F) n = Panic.
Proof. exact (conj (@Highest_empty N n) (@Lowest_empty N n)). Qed.
Print Assumptions C05_empty_panics.

Example C05_hyp : Highest (fzs [9; 2; 4; 3; 1]) 3 = Ok (fz 4) /\ Lowest (fzs [9; 2; 4; 3; 1]) (-3) = Ok (fz 1) /\
  Highest (fzs [9; 2; 4; 3; 1]) 100 = Ok (fz 9) /\ lastn (fzs [9; 2; 4; 3; 1]) 3 = fzs [4; 3; 1].
Proof. repeat split; reflexivity. Qed.

(** ** C06 *)
(** Entry i is 0 before left+right bars are available; afterwards it is the value
    [right] bars back if that value is a largest one among the left+right+1
    values ending at i, and 0 otherwise. *)
Theorem C06_PivotHigh (L : MathLib) (l r : nat) (xs : list (@F (B64 L))) : no_nan xs ->
  exists pv, PivotHigh xs (Z.of_nat l) (Z.of_nat r) = Ok pv /\ length pv = length xs /\
    forall i, (i < length xs)%nat ->
      ((i < l + r)%nat -> nth i pv fzero = fzero) /\
      ((l + r <= i)%nat ->
        (max_of (nth (i - r) xs fzero) (window xs i (S (l + r))) -> (nth i pv fzero ==~ nth (i - r) xs fzero) = true) /\
        (~ max_of (nth (i - r) xs fzero) (window xs i (S (l + r))) -> nth i pv fzero = fzero)).
Proof. exact (@PivotHigh_spec _ (B64_ord L) l r xs). Qed.
Print Assumptions C06_PivotHigh.

Theorem C06_PivotLow (L : MathLib) (l r : nat) (xs : list (@F (B64 L))) : no_nan xs ->
  exists pv, PivotLow xs (Z.of_nat l) (Z.of_nat r) = Ok pv /\ length pv = length xs /\
    forall i, (i < length xs)%nat ->
      ((i < l + r)%nat -> nth i pv fzero = fzero) /\
      ((l + r <= i)%nat ->
        (min_of (nth (i - r) xs fzero) (window xs i (S (l + r))) -> (nth i pv fzero ==~ nth (i - r) xs fzero) = true) /\
        (~ min_of (nth (i - r) xs fzero) (window xs i (S (l + r))) -> nth i pv fzero = fzero)).
Proof. exact (@PivotLow_spec _ (B64_ord L) l r xs). Qed.
Print Assumptions C06_PivotLow.

Example C06_hyp : PivotHigh (fzs [1; 2; 4; 3; 1; 5; 2]) 1 1 = Ok (fzs [0; 0; 0; 4; 0; 0; 5]) /\
  PivotLow (fzs [1; 2; 4; 3; 1; 5; 2]) 2 1 = Ok (fzs [0; 0; 0; 0; 0; 1; 0]).
Proof. split; reflexivity. Qed.

(** ** C07 *)
(** False as stated: a tie between the two sides makes PivotMax/PivotMin return the
    centre value although larger (smaller) ones exist in the window; PivotMax also
    ignores negative values. *)
Theorem C07_pivot_extreme_refuted :
  (PivotMax (fzs [5; 1; 5]) 1 1 1 = Ok (fz 1, 1) /\ (fz 1 <~ fz 5) = true) /\
  (PivotMin (fzs [1; 5; 1]) 1 1 1 = Ok (fz 5, 1) /\ (fz 1 <~ fz 5) = true) /\
  (PivotMax (fzs [-1; -5; -2]) 1 1 1 = Ok (fz (-5), 1) /\ (fz (-5) <~ fz (-1)) = true).
Proof. repeat split; reflexivity. Qed.
Print Assumptions C07_pivot_extreme_refuted.

(** What holds: the result is the value at the returned position, which lies in the
    window, and it is the extreme unless (a) a position on each side of the index
    holds equal values that beat the centre, or (b, PivotMax) all values are <= 0. *)
Theorem C07_PivotMin_partial (L : MathLib) (xs : list (@F (B64 L))) (ix l r : nat) :
  no_nan xs -> (ix < length xs)%nat ->
  let x j := nth j xs fzero in
  let around j := (ix <= j + l)%nat /\ (j <= ix + r)%nat /\ (j < length xs)%nat in
  exists v pos, PivotMin xs (Z.of_nat ix) (Z.of_nat l) (Z.of_nat r) = Ok (v, Z.of_nat pos) /\
    around pos /\ v = x pos /\
    ((forall j, around j -> (v <=~ x j) = true) \/
     (pos = ix /\ exists j k, around j /\ around k /\ (j < ix < k)%nat /\ (x j ==~ x k) = true /\ (x j <~ x ix) = true)).
Proof. intros H1 H2. exact (@PivotMin_spec _ (B64_ord L) xs H1 ix l r H2). Qed.
Print Assumptions C07_PivotMin_partial.

Theorem C07_PivotMax_partial (L : MathLib) (xs : list (@F (B64 L))) (ix l r : nat) :
  no_nan xs -> (ix < length xs)%nat ->
  let x j := nth j xs fzero in
  let around j := (ix <= j + l)%nat /\ (j <= ix + r)%nat /\ (j < length xs)%nat in
  exists v pos, PivotMax xs (Z.of_nat ix) (Z.of_nat l) (Z.of_nat r) = Ok (v, Z.of_nat pos) /\
    around pos /\ v = x pos /\
    ((forall j, around j -> (x j <=~ v) = true) \/
     (pos = ix /\ exists j k, around j /\ around k /\ (j < ix < k)%nat /\ (x j ==~ x k) = true /\ (x ix <~ x j) = true) \/
     (pos = ix /\ forall j, around j -> (x j <=~ fzero) = true)).
Proof. intros H1 H2. exact (@PivotMax_spec _ (B64_ord L) xs H1 ix l r H2). Qed.
Print Assumptions C07_PivotMax_partial.

Example C07_hyp : PivotMax (fzs [1; 2; 4; 3; 7; 5]) 2 1 2 = Ok (fz 7, 4) /\
  PivotMin (fzs [1; 2; 4; 3; 7; 5]) 2 1 2 = Ok (fz 2, 1).
Proof. split; reflexivity. Qed.

(** ** C08 *)
(** In exact arithmetic every entry is the mean of its window. *)
Theorem C08_Sma_is_window_mean (p : nat) (xs : list R) : (1 <= p)%nat ->
  Sma (N := XR) (Z.of_nat p) (fins xs) =
  Ok (tab (length xs) (fun i => Fin (mean (window xs i p)))).
Proof. exact (@Sma_exact p xs). Qed.
Print Assumptions C08_Sma_is_window_mean.

(** On float64, whatever the input and the period: no entry is NaN or -Inf. *)
Theorem C08_Sma_no_nan_no_ninf (L : MathLib) (p : Z) (xs r : list (@F (B64 L))) :
  Sma p xs = Ok r -> Forall (fun v => isNaN v = false /\ isNInf v = false) r.
Proof. exact (@Sma_clean_gen (B64 L) p xs r eq_refl eq_refl). Qed.
Print Assumptions C08_Sma_no_nan_no_ninf.

(** One entry per value for every period >= 0; period 0 gives zeros whatever the
    float64 input; a negative period panics on non-empty input, and only then. *)
Theorem C08_Sma_shape (L : MathLib) (p : Z) (xs : list (@F (B64 L))) :
  (0 <= p -> exists r, Sma p xs = Ok r /\ length r = length xs) /\
  Sma 0 xs = Ok (repeat fzero (length xs)) /\
  (Sma p xs = Panic <-> p < 0 /\ xs <> []).
Proof.
  assert (H : 0 <= p -> exists r, Sma p xs = Ok r /\ length r = length xs).
  { intros Hp. rewrite <- (Z2Nat.id p Hp), Sma_gen. eexists; split; [reflexivity|apply tab_length]. }
  split; [exact H|split; [exact (Sma_zero_b64 xs)|]].
  destruct (Z.le_gt_cases 0 p) as [Hp|Hp].
  - destruct (H Hp) as (r & E & _). rewrite E. split; [discriminate|lia].
  - destruct xs as [|x xs]; [rewrite Sma_nil; split; [discriminate|intros [_ []]; reflexivity]|].
    rewrite Sma_neg by (lia || discriminate). split; [intros _; split; [lia|discriminate]|reflexivity].
Qed.
Print Assumptions C08_Sma_shape.

Example C08_hyp : Sma 2 (fzs [1; 2; 4]) = Ok [fz 1; fq 3 2; fz 3] /\
  Sma 2 [fz 1; @fdiv EX (fz 0) (fz 0); fz 4; fz 5] = Ok [fz 1; fz 0; fz 0; fz 0].
Proof. split; reflexivity. Qed.

(** ** C09 *)
Theorem C09_Sum_is_window_sum (p : nat) (xs : list R) :
  Sum (N := XR) (Z.of_nat p) (fins xs) =
  Ok (tab (length xs) (fun i => Fin (Rsum (window xs i p)))).
Proof. exact (@Sum_exact p xs). Qed.
Print Assumptions C09_Sum_is_window_sum.

Theorem C09_Sum_shape (N : Num) (p : Z) (xs : list F) :
  (0 <= p -> exists r, Sum p xs = Ok r /\ length r = length xs) /\
  (p < 0 -> xs <> [] -> Sum p xs = Panic).
Proof.
  split; [|exact (@Sum_neg N p xs)].
  intros Hp. rewrite <- (Z2Nat.id p Hp), Sum_gen. eexists; split; [reflexivity|apply tab_length].
Qed.
Print Assumptions C09_Sum_shape.

Example C09_hyp : Sum 2 (fzs [1; 2; 4; -1]) = Ok (fzs [1; 3; 6; 3]).
Proof. reflexivity. Qed.

(** ** C10 *)
(** The recurrence, in exact arithmetic, with smoothing factor 2/(period+1). *)
Theorem C10_Ema_recurrence (p : Z) (xs : list R) : 1 <= p ->
  let a := (2 / (IZR p + 1))%R in let x k := nth k xs 0%R in
  exists e : nat -> R,
    Ema (N := XR) p (fins xs) = Ok (tab (length xs) (fun i => Fin (e i))) /\
    e 0%nat = x 0%nat /\ forall i, e (S i) = (a * x (S i) + (1 - a) * e i)%R.
Proof.
  intros Hp a x. exists (ema a x). split; [exact (@Ema_exact p xs Hp)|split; reflexivity].
Qed.
Print Assumptions C10_Ema_recurrence.

(** Consequences: closed form, bounds, constants, linearity. *)
Theorem C10_Ema_weights (p : Z) (xs : list R) : 1 <= p ->
  let a := (2 / (IZR p + 1))%R in let x k := nth k xs 0%R in
  Ema (N := XR) p (fins xs) =
  Ok (tab (length xs) (fun i =>
        Fin (sumf (fun k => a * (1 - a) ^ k * x (i - k)%nat) i + (1 - a) ^ i * x 0%nat)%R)).
Proof.
  intros Hp a x. rewrite Ema_exact by exact Hp. apply f_equal, tab_ext. intros i _. f_equal.
  exact (ema_closed a x i).
Qed.
Print Assumptions C10_Ema_weights.

Theorem C10_Ema_within_range_seen (p : Z) (xs : list R) (lo hi : R) i : 1 <= p -> (i < length xs)%nat ->
  (forall k, (k <= i)%nat -> (lo <= nth k xs 0 <= hi)%R) ->
  exists r v, Ema (N := XR) p (fins xs) = Ok r /\ nth_error r i = Some (Fin v) /\ (lo <= v <= hi)%R.
Proof.
  intros Hp Hi H. rewrite Ema_exact by exact Hp. eexists. exists (ema (2 / (IZR p + 1)) (fun k => nth k xs 0) i)%R.
  split; [reflexivity|]. split; [rewrite tab_nth_error by exact Hi; reflexivity|].
  apply ema_bounds; [|exact H]. pose proof (ema_a_range Hp) as E. unfold ema_a in E. lra.
Qed.
Print Assumptions C10_Ema_within_range_seen.

Theorem C10_Ema_constant_and_linear (p : Z) (n : nat) (c u v : R) (xs ys : list R) : 1 <= p ->
  Ema (N := XR) p (fins (repeat c n)) = Ok (fins (repeat c n)) /\
  (length xs = length ys ->
   exists ex ey, Ema (N := XR) p (fins xs) = Ok (fins ex) /\ Ema (N := XR) p (fins ys) = Ok (fins ey) /\
     Ema (N := XR) p (fins (tab (length xs) (fun k => u * nth k xs 0 + v * nth k ys 0)%R)) =
     Ok (fins (tab (length xs) (fun k => u * nth k ex 0 + v * nth k ey 0)%R))).
Proof.
  intros Hp. split.
  - rewrite Ema_exact by exact Hp. rewrite repeat_length. apply f_equal.
    transitivity (tab n (fun _ => Fin c)); [|unfold fins; now rewrite map_repeat, tab_const].
    apply tab_ext. intros i Hi. f_equal. transitivity (ema (ema_a p) (fun _ => c) i); [|apply ema_const].
    apply ema_ext. intros k Hk. now rewrite nth_repeat_lt by lia.
  - intros Hl. exists (tab (length xs) (ema (ema_a p) (fun k => nth k xs 0%R))), (tab (length ys) (ema (ema_a p) (fun k => nth k ys 0%R))).
    rewrite !Ema_exact by exact Hp. unfold fins. rewrite !map_tab, tab_length. repeat split; auto.
    apply f_equal, tab_ext. intros i Hi. f_equal.
    rewrite !tab_nth by lia. rewrite <- ema_linear. apply ema_ext. intros k Hk. now rewrite tab_nth by lia.
Qed.
Print Assumptions C10_Ema_constant_and_linear.

Theorem C10_Ema_never_panics (N : Num) (p : Z) (xs : list F) :
  exists r, Ema p xs = Ok r /\ length r = length xs.
Proof. eexists; split; [exact (@Ema_gen N p xs)|apply tab_length]. Qed.
Print Assumptions C10_Ema_never_panics.

Example C10_hyp : Ema 3 (fzs [2; 4; 8; -1]) = Ok [fz 2; fz 3; fq 11 2; fq 9 4].
Proof. reflexivity. Qed.

(** ** C11 *)
Theorem C11_Dema (p : Z) (xs : list R) : 1 <= p ->
  exists e1 e2,
    Ema (N := XR) p (fins xs) = Ok (fins e1) /\ Ema (N := XR) p (fins e1) = Ok (fins e2) /\
    length e1 = length xs /\ length e2 = length xs /\
    Dema (N := XR) p (fins xs) = Ok (tab (length xs) (fun i => Fin (2 * nth i e1 0 - nth i e2 0)%R)).
Proof.
  intros Hp. set (e := ema (ema_a p) (fun k => nth k xs 0%R)).
  exists (tab (length xs) e), (tab (length xs) (ema (ema_a p) e)).
  rewrite !Ema_exact, Dema_exact by exact Hp. unfold fins. rewrite !map_tab, !tab_length.
  repeat split; auto.
  - apply f_equal, tab_ext. intros i Hi. f_equal. apply ema_ext. intros k Hk. now rewrite tab_nth by lia.
  - apply f_equal, tab_ext. intros i Hi. cbv zeta. now rewrite !tab_nth by lia.
Qed.
Print Assumptions C11_Dema.

Theorem C11_Dema_constant (p : Z) (n : nat) (c : R) : 1 <= p ->
  Dema (N := XR) p (fins (repeat c n)) = Ok (fins (repeat c n)).
Proof.
  intros Hp. rewrite Dema_exact by exact Hp. rewrite repeat_length. apply f_equal.
  transitivity (tab n (fun _ => Fin c)); [|unfold fins; now rewrite map_repeat, tab_const].
  apply tab_ext. intros i Hi. cbv zeta. f_equal.
  assert (H : forall k, (k < n)%nat -> ema (ema_a p) (fun k => nth k (repeat c n) 0%R) k = c).
  { intros k Hk. transitivity (ema (ema_a p) (fun _ => c) k); [|apply ema_const]. apply ema_ext. intros j Hj. now rewrite nth_repeat_lt by lia. }
  rewrite H by exact Hi.
  replace (ema (ema_a p) (ema (ema_a p) (fun k => nth k (repeat c n) 0)) i)%R with c; [lra|].
  symmetry. transitivity (ema (ema_a p) (fun _ => c) i); [|apply ema_const].
  apply ema_ext. intros k Hk. now rewrite H by lia.
Qed.
Print Assumptions C11_Dema_constant.

Example C11_hyp : Dema 3 (fzs [2; 4; 8]) = Ok [fz 2; fq 7 2; fz 7].
Proof. reflexivity. Qed.

(** ** C12 *)
(** False as documented: the first value never enters the running sum, so entry 0 is
    0 and the warm-up entries are not averages: Rma(3,[3,3,3,3]) starts 0, 1.5, 2. *)
Theorem C12_Rma_documentation_refuted :
  exists xs p, Rma p xs = Ok [fz 0; fq 3 2; fz 2; fq 7 3] /\
    Sma p xs = Ok [fz 3; fz 3; fz 3; fz 3] /\ xs = fzs [3; 3; 3; 3] /\ p = 3.
Proof. exists (fzs [3; 3; 3; 3]), 3. repeat split; reflexivity. Qed.
Print Assumptions C12_Rma_documentation_refuted.

(** What holds: the recurrence after the warm-up, on any arithmetic ... *)
Theorem C12_Rma_recurrence_partial (N : Num) (p : Z) (xs : list F) :
  exists r, Rma p xs = Ok r /\ length r = length xs /\
    forall i, p <= Z.of_nat (S i) -> (S i < length xs)%nat ->
      nth (S i) r fzero = (nth i r fzero *~ ofZ (p - 1) +~ nth (S i) xs fzero) /~ ofZ p.
Proof.
  eexists. split; [exact (@Rma_gen N p xs)|]. split; [apply tab_length|].
  intros i Hp Hi. rewrite !tab_nth by lia. apply rma_recurrence. exact Hp.
Qed.
Print Assumptions C12_Rma_recurrence_partial.

(** ... and, before it, the sum of all values but the first over the number of values. *)
Theorem C12_Rma_warmup_partial (p : Z) (xs : list R) :
  exists r, Rma (N := XR) p (fins xs) = Ok r /\ length r = length xs /\
    forall i, Z.of_nat i < p \/ i = 0%nat -> (i < length xs)%nat ->
      nth i r fzero = Fin ((Rsum (firstn (S i) xs) - nth 0 xs 0) / INR (S i))%R.
Proof.
  eexists. split; [exact (@Rma_gen XR p (fins xs))|]. split; [now rewrite tab_length, fins_length|].
  intros i Hp Hi. rewrite tab_nth by (rewrite fins_length; lia). rewrite rmaS_warm by exact Hp. cbn [snd].
  f_equal. f_equal. f_equal. rewrite Rsum_nth, firstn_length, Nat.min_l by lia.
  apply sumf_ext. intros k Hk. now rewrite nth_firstn_lt by lia.
Qed.
Print Assumptions C12_Rma_warmup_partial.

(** ** C13 *)
Theorem C13_Wma_is_weighted_mean (p : nat) (xs : list R) : (1 <= p)%nat -> (p <= S (length xs))%nat ->
  Wma (N := XR) (Z.of_nat p) (fins xs) =
  Ok (tab (length xs) (fun i => if (S i <? p)%nat then Fin 0 else Fin (wmean (window xs i p)))).
Proof. exact (@Wma_exact p xs). Qed.
Print Assumptions C13_Wma_is_weighted_mean.

(** It panics exactly when the period exceeds len+1, or is < 1 on non-empty input. *)
Theorem C13_Wma_panics_iff (p : Z) (xs : list R) :
  Wma (N := XR) p (fins xs) = Panic <-> len xs + 1 < p \/ (p <= 0 /\ xs <> []).
Proof.
  pose proof (len_nonneg xs) as Hl. assert (El : len (fins xs) = len xs) by (unfold len; now rewrite fins_length).
  destruct (Z.le_gt_cases p 0) as [Hp|Hp].
  - destruct xs as [|x xs].
    + change (fins []) with (@nil (@F XR)). rewrite Wma_nonpos_nil by exact Hp.
      split; [discriminate|intros [?|[_ []]]; [lia|reflexivity]].
    + rewrite Wma_panic_neg by (exact Hp || discriminate). split; [intros _; right; split; [lia|discriminate]|reflexivity].
  - destruct (Z.le_gt_cases p (len xs + 1)) as [H|H].
    + rewrite <- (Z2Nat.id p) at 1 by lia. rewrite Wma_exact by (unfold len in *; lia).
      split; [discriminate|lia].
    + rewrite Wma_panic_short by lia. split; [intros _; left; lia|reflexivity].
Qed.
Print Assumptions C13_Wma_panics_iff.

Theorem C13_Wma_short_panics_any_float (N : Num) (p : Z) (xs : list F) :
  len xs + 1 < p \/ (p <= 0 /\ xs <> []) -> Wma p xs = Panic.
Proof. intros [H|[H H1]]; [exact (Wma_panic_short xs H)|exact (Wma_panic_neg H H1)]. Qed.
Print Assumptions C13_Wma_short_panics_any_float.

Example C13_hyp : Wma 3 (fzs [6; 12; 18; 0]) = Ok [fz 0; fz 0; fz 14; fz 8] /\
  wmean [6; 12; 18]%R = 14%R.
Proof. split; [reflexivity|]. unfold wmean; cbn. lra. Qed.

(** ** C14 *)
Theorem C14_Variance (p : nat) (xs : list R) : (1 <= p)%nat -> (p <= length xs)%nat ->
  Variance (N := XR) (fins xs) (Z.of_nat p) =
  Ok (tab (length xs) (fun i => if (S i <? p)%nat then Fin 0 else Fin (variance (window xs i p)))).
Proof. exact (@Variance_exact p xs). Qed.
Print Assumptions C14_Variance.

Theorem C14_Variance_nonnegative (xs : list R) : xs <> [] -> (0 <= variance xs)%R.
Proof. exact (@variance_nonneg xs). Qed.
Print Assumptions C14_Variance_nonnegative.

Theorem C14_Variance_panics_iff (p : Z) (xs : list R) (nb : @F XR) :
  (Variance (N := XR) (fins xs) p = Panic <-> p < 1 \/ len xs < p) /\
  (StdDev (N := XR) (fins xs) p nb = Panic <-> p < 1 \/ len xs < p).
Proof.
  rewrite StdDev_gen. assert (El : len (fins xs) = len xs) by (unfold len; now rewrite fins_length).
  destruct (Z.le_gt_cases 1 p) as [H1|H1]; [destruct (Z.le_gt_cases p (len xs)) as [H2|H2]|].
  - rewrite <- (Z2Nat.id p) by lia. rewrite Variance_exact by (unfold len in *; lia). cbn [bind].
    split; (split; [discriminate|lia]).
  - rewrite Variance_panic by lia. cbn [bind]. split; (split; [lia|reflexivity]).
  - rewrite Variance_panic by lia. cbn [bind]. split; (split; [lia|reflexivity]).
Qed.
Print Assumptions C14_Variance_panics_iff.

(** StdDev is [nb] times the square root of the variance, 0 below 1e-14. *)
Theorem C14_StdDev (p : nat) (xs : list R) (nb : R) : (1 <= p)%nat -> (p <= length xs)%nat ->
  StdDev (N := XR) (fins xs) (Z.of_nat p) (Fin nb) =
  Ok (tab (length xs) (fun i =>
        let v := if (S i <? p)%nat then 0%R else variance (window xs i p) in
        if Rltb v (1 / 100000000000000) then Fin 0 else Fin (sqrt v * nb)%R)).
Proof. exact (@StdDev_exact p xs nb). Qed.
Print Assumptions C14_StdDev.

(** SD is the population standard deviation. *)
Theorem C14_SD (xs : list R) : xs <> [] -> SD (N := XR) (fins xs) = Fin (sqrt (variance xs)).
Proof. exact (@SD_exact xs). Qed.
Print Assumptions C14_SD.

Example C14_hyp : Variance (fzs [1; 3; 5; 5]) 2 = Ok (fzs [0; 1; 1; 0]) /\
  StdDev (fzs [1; 5; 5; 9]) 2 (fz 3) = Ok (fzs [0; 6; 0; 6]) /\ SD (fzs [1; 5; 1; 5]) = fz 2.
Proof. repeat split; reflexivity. Qed.

(** ** C15 *)
(** For every window there is a unique least-squares line b + m*x through its
    points (0,y0),(1,y1),...; the four functions report it. *)
Theorem C15_LinearReg_is_least_squares (p : nat) (xs : list R) : (2 <= p)%nat -> (p <= length xs)%nat ->
  exists b m : nat -> R,
    (forall i, (p <= S i)%nat -> (i < length xs)%nat -> least_squares (b i) (m i) (points (window xs i p))) /\
    LinearRegSlope (N := XR) (fins xs) (Z.of_nat p) =
      Ok (tab (length xs) (fun i => if (S i <? p)%nat then Fin 0 else Fin (m i))) /\
    LinearRegIntercept (N := XR) (fins xs) (Z.of_nat p) =
      Ok (tab (length xs) (fun i => if (S i <? p)%nat then Fin 0 else Fin (b i))) /\
    LinearReg (N := XR) (fins xs) (Z.of_nat p) =
      Ok (tab (length xs) (fun i => if (S i <? p)%nat then Fin 0 else Fin (b i + m i * (INR p - 1))%R)) /\
    LinearRegAngle (N := XR) (fins xs) (Z.of_nat p) =
      Ok (tab (length xs) (fun i => if (S i <? p)%nat then Fin 0 else Fin (atan (m i) * (180 / PI))%R)).
Proof. exact (@lr_tables p xs). Qed.
Print Assumptions C15_LinearReg_is_least_squares.

Theorem C15_LinearReg_panics (N : Num) (xs : list F) (p : Z) : p <= 0 \/ len xs < p ->
  LinearReg xs p = Panic /\ LinearRegSlope xs p = Panic /\
  LinearRegIntercept xs p = Panic /\ LinearRegAngle xs p = Panic.
Proof. intros H. repeat split; exact (lr_panic _ xs H). Qed.
Print Assumptions C15_LinearReg_panics.

Example C15_hyp : LinearRegSlope (fzs [1; 3; 5; 7; 1]) 3 = Ok (fzs [0; 0; 2; 2; -2]) /\
  LinearRegIntercept (fzs [1; 3; 5; 7]) 3 = Ok (fzs [0; 0; 1; 3]) /\
  LinearReg (fzs [1; 3; 5; 7]) 3 = Ok (fzs [0; 0; 5; 7]).
Proof. repeat split; reflexivity. Qed.

(** ** C16 *)
Theorem C16_LeastSquare (x y : list R) : (length x <= length y)%nat ->
  forall i j, (i < length x)%nat -> (j < length x)%nat -> nth i x 0%R <> nth j x 0%R ->
  exists m b, LeastSquare (N := XR) (fins x) (fins y) = Ok (Fin m, Fin b) /\
    least_squares b m (combine x y).
Proof. exact (@LeastSquare_exact x y). Qed.
Print Assumptions C16_LeastSquare.

(** Entry i of the moving version is the least-squares line of the last
    min(i+1,period) points, whenever two of them have different abscissae. *)
Theorem C16_MovingLeastSquare (p : nat) (x y : list R) : (1 <= p)%nat -> (length x <= length y)%nat ->
  exists ms bs, MovingLeastSquare (N := XR) (Z.of_nat p) (fins x) (fins y) = Ok (ms, bs) /\
    length ms = length x /\ length bs = length x /\
    forall i, (i < length x)%nat ->
    forall u v, In u (window x i p) -> In v (window x i p) -> u <> v ->
    exists m b, nth i ms fzero = Fin m /\ nth i bs fzero = Fin b /\
      least_squares b m (window (combine x y) i p).
Proof. exact (@MovingLeastSquare_exact p x y). Qed.
Print Assumptions C16_MovingLeastSquare.

(** The regression values are the line evaluated at each abscissa. *)
Theorem C16_regression_values (N : Num) (p : nat) (x y : list F) : (length x <= length y)%nat ->
  (exists m b, LeastSquare x y = Ok (m, b) /\
     LinearRegressionUsingLeastSquare x y = Ok (tab (length x) (fun i => m *~ nth i x fzero +~ b))) /\
  (exists ms bs, MovingLeastSquare (Z.of_nat p) x y = Ok (ms, bs) /\
     MovingLinearRegressionUsingLeastSquare (Z.of_nat p) x y =
     Ok (tab (length x) (fun i => nth i ms fzero *~ nth i x fzero +~ nth i bs fzero))).
Proof. exact (@regression_values N p x y). Qed.
Print Assumptions C16_regression_values.

Theorem C16_panics (N : Num) (p : Z) (x y : list F) :
  ((length y < length x)%nat -> LeastSquare x y = Panic) /\
  (p < 0 -> x <> [] -> MovingLeastSquare p x y = Panic).
Proof. exact (conj (@LeastSquare_panic N x y) (@MovingLeastSquare_neg N p x y)). Qed.
Print Assumptions C16_panics.

Example C16_hyp : LeastSquare (fzs [0; 1; 2; 4]) (fzs [1; 3; 5; 9]) = Ok (fz 2, fz 1) /\
  MovingLeastSquare 2 (fzs [0; 1; 2; 4]) (fzs [1; 3; 5; 1]) =
    Ok ([@fdiv EX (fz 0) (fz 0); fz 2; fz 2; fz (-2)], [@fdiv EX (fz 0) (fz 0); fz 1; fz 1; fz 9]).
Proof. split; reflexivity. Qed.
