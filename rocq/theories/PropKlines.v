(** * PropKlines: properties C27-C36 (utils/klines and utils/interface.go).

    Definitions of the specification are in SpecKlines.v. *)
From Coq Require Import String Permutation Reals.
From Verif Require Import Base Num B64 XReal Order Lits Sides Klines SpecTa SpecKlines KlineFloat
  KlineProofs1 KlineProofs2 KlineProofs3 KlineConvert2.

(** A float64 candle: open, high, low, close, volume, time. *)
Definition kx (o h l c v t : Z) : @Candle EX :=
  mkCandle fzero 0 (fz o) (fz c) (fz l) (fz h) (fz v) fzero false t.
(** An item of 60-second candles. *)
Definition ix (cs : list (@Candle EX)) : @Item EX := mkItem "X" (60 * second) "S" "C" cs.

(** ** C27 *)
Theorem C27_RunStrategies W (strategies : list (Strategy W)) (w w' : W) (results : list SideData) :
  RunStrategies strategies w = Ok (w', results) <-> called_in_order strategies w w' results.
Proof. exact (RunStrategies_spec strategies w w' results). Qed.
Print Assumptions C27_RunStrategies.
Theorem C27_one_result_each W (strategies : list (Strategy W)) (w w' : W) (results : list SideData) :
  RunStrategies strategies w = Ok (w', results) -> length results = length strategies.
Proof. intros H. exact (calls_length (proj1 (RunStrategies_spec _ _ _ _) H)). Qed.
Print Assumptions C27_one_result_each.

Example C27_hyp :
  let s n : Strategy (list Z) := fun w => Ok (w ++ [n], mkSideData "s" [n]) in
  RunStrategies [s 2; s 0; s 4] [] = Ok ([2; 0; 4], [mkSideData "s" [2]; mkSideData "s" [0]; mkSideData "s" [4]]).
Proof. reflexivity. Qed.

(** ** C28 *)
Theorem C28_RemoveDuplicates (N : Num) (m : Mem) (e : MItem) (l : list (nat * Candle)) :
  shows m e l -> exists m' e', RemoveDuplicates m e = Ok (m', e') /\
    shows m' e' (select (is_first l) l) /\ mArr e' = mArr e /\ only_array (mArr e) m m'.
Proof. exact (@RemoveDuplicates_spec N m e l). Qed.
Print Assumptions C28_RemoveDuplicates.
(** no time stamp is left twice, and every one is still there *)
Theorem C28_distinct_times (N : Num) (l : list (nat * Candle)) :
  NoDup (map (fun pc => cTime (snd pc)) (select (is_first l) l)) /\
  forall pc, In pc l -> exists pc', In pc' (select (is_first l) l) /\ cTime (snd pc') = cTime (snd pc).
Proof. exact (conj (firsts_distinct l) (firsts_cover l)). Qed.
Print Assumptions C28_distinct_times.
(** running it again leaves the list as it is *)
Theorem C28_idempotent (N : Num) (m m1 : Mem) (e e1 : MItem) (l : list (nat * Candle)) :
  shows m e l -> RemoveDuplicates m e = Ok (m1, e1) ->
  exists m2 e2, RemoveDuplicates m1 e1 = Ok (m2, e2) /\ forall l1, shows m1 e1 l1 -> shows m2 e2 l1.
Proof. exact (@RemoveDuplicates_twice N m m1 e e1 l). Qed.
Print Assumptions C28_idempotent.

Definition mx : @Mem EX :=
  mkMem [kx 1 1 1 1 1 60; kx 2 2 2 2 2 60; kx 3 3 3 3 3 120; kx 4 4 4 4 4 60] [[Some 0%nat; Some 1%nat; Some 2%nat; Some 3%nat]].
Definition ex_item : MItem := mkMItem "X" (60 * second) "S" "C" 0 4.
Definition lx : list (nat * @Candle EX) :=
  [(0%nat, kx 1 1 1 1 1 60); (1%nat, kx 2 2 2 2 2 60); (2%nat, kx 3 3 3 3 3 120); (3%nat, kx 4 4 4 4 4 60)].
Example C28_hyp : shows mx ex_item lx /\
  select (is_first lx) lx = [(0%nat, kx 1 1 1 1 1 60); (2%nat, kx 3 3 3 3 3 120)].
Proof. split; [|reflexivity]. repeat split; cbn; auto. repeat constructor. Qed.

(** ** C29 *)
Theorem C29_RemoveOutsideRange (N : Num) (m : Mem) (e : MItem) (l : list (nat * Candle)) (start end_ : Z) :
  shows m e l -> exists m' e', RemoveOutsideRange m e start end_ = Ok (m', e') /\
    shows m' e' (filter (fun pc => within start end_ (cTime (snd pc))) l) /\
    mArr e' = mArr e /\ only_array (mArr e) m m'.
Proof. exact (@RemoveOutsideRange_within N m e l start end_). Qed.
Print Assumptions C29_RemoveOutsideRange.
(** The copy holds copies of the same candles, in an array and in candles of its
    own; nothing that existed before has changed. *)
Theorem C29_Copy (N : Num) (m : Mem) (e : MItem) (l : list (nat * Candle)) (start end_ : Z) :
  shows m e l -> exists m' e' l', RemoveOutsideRangeCopy m e start end_ = Ok (m', e') /\
    shows m' e' l' /\
    map snd l' = filter (fun c => within start end_ (cTime c)) (map snd l) /\
    mArr e' = length (arrs m) /\ Forall (fun pc => (length (cells m) <= fst pc)%nat) l' /\
    grown m m' /\ shows m' e l.
Proof. exact (@RemoveOutsideRangeCopy_within N m e l start end_). Qed.
Print Assumptions C29_Copy.

Example C29_hyp : shows mx ex_item lx /\
  filter (fun pc => within (unix 60) (unix 120) (cTime (snd pc))) lx
  = [(0%nat, kx 1 1 1 1 1 60); (1%nat, kx 2 2 2 2 2 60); (3%nat, kx 4 4 4 4 4 60)] /\
  filter (fun pc => within (unix 200) (unix 100) (cTime (snd pc))) lx = [].
Proof. split; [exact (proj1 C28_hyp)|split; reflexivity]. Qed.

(** ** C30 *)
(** Whatever sort.Slice does, the result is a permutation; but the direction is the
    opposite of the requested one. *)
Theorem C30_partial (N : Num) (desc : bool) (l l' : list Candle) :
  SortCandlesByTimestamp desc l l' ->
  Permutation l l' /\ (if desc then ascending l' else descending l').
Proof. exact (@sort_order N desc l l'). Qed.
Print Assumptions C30_partial.
Theorem C30_direction_refuted (N : Num) (l l' : list Candle) (a b : Candle) :
  In a l -> In b l -> cTime a < cTime b ->
  (SortCandlesByTimestamp true l l' -> ~ descending l') /\
  (SortCandlesByTimestamp false l l' -> ~ ascending l').
Proof. exact (@sort_wrong N l l' a b). Qed.
Print Assumptions C30_direction_refuted.
(** a sorted result always exists *)
Theorem C30_exists (N : Num) (desc : bool) (l : list Candle) : exists l', SortCandlesByTimestamp desc l l'.
Proof. exact (sort_exists desc l). Qed.
Print Assumptions C30_exists.

Example C30_hyp : SortCandlesByTimestamp true [kx 1 1 1 1 1 120; kx 2 2 2 2 2 60] [kx 2 2 2 2 2 60; kx 1 1 1 1 1 120] /\
  cTime (kx 2 2 2 2 2 60) < cTime (kx 1 1 1 1 1 120).
Proof.
  split; [|reflexivity]. split; [constructor|]. constructor; [intros b [<-|[]]; reflexivity|].
  constructor; [intros b []|constructor].
Qed.

(** ** C31 *)
(** [n] intervals fit the window; candle k of the result is the original candle at
    that time if there is one, an empty one otherwise. *)
Theorem C31_padding (N : Num) (e : Item) (start stop : Z) (purge : bool) :
  second <= iInterval e -> increasing (iCandles e) -> 0 < stop - start <= max_dur ->
  let n := Z.to_nat ((stop - start) / iInterval e) in
  let slots := tab n (fun k => slot (iCandles e) (slot_time start (iInterval e) k)) in
  aligned (iCandles e) start (iInterval e) n -> (purge = true -> (0 < n)%nat) ->
  addPadding (Some e) start stop purge =
    Ok (None, Some (with_candles e (if purge then purged slots else slots))).
Proof. exact (@padding_aligned N e start stop purge). Qed.
Print Assumptions C31_padding.
Theorem C31_misaligned (N : Num) (e : Item) (start stop : Z) (purge : bool) :
  second <= iInterval e -> increasing (iCandles e) -> 0 < stop - start <= max_dur ->
  ~ aligned (iCandles e) start (iInterval e) (Z.to_nat ((stop - start) / iInterval e)) ->
  addPadding (Some e) start stop purge = Ok (Some ErrNotAligned, Some e).
Proof. exact (@padding_misaligned N e start stop purge). Qed.
Print Assumptions C31_misaligned.
Theorem C31_errors (N : Num) (e : Item) (start stop : Z) (purge : bool) :
  addPadding None start stop purge = Ok (Some ErrNilKline, None) /\
  (iInterval e <= 0 -> addPadding (Some e) start stop purge = Ok (Some ErrInvalidInterval, Some e)) /\
  (0 < iInterval e -> stop <= start -> addPadding (Some e) start stop purge = Ok (Some ErrTimeWindow, Some e)).
Proof. exact (@padding_errors N e start stop purge). Qed.
Print Assumptions C31_errors.
(** a window shorter than one interval makes the purge read index -1 *)
Theorem C31_short_window_refuted (N : Num) (e : Item) (start stop : Z) :
  second <= iInterval e -> increasing (iCandles e) -> 0 < stop - start < iInterval e -> stop - start <= max_dur ->
  addPadding (Some e) start stop true = Panic.
Proof. exact (@padding_short N e start stop). Qed.
Print Assumptions C31_short_window_refuted.

Example C31_hyp :
  let e := ix [kx 5 9 3 7 10 60; kx 7 8 6 6 20 180] in
  second <= iInterval e /\ increasing (iCandles e) /\
  aligned (iCandles e) (unix 0) (iInterval e) 5 /\ Z.to_nat ((unix 300 - unix 0) / iInterval e) = 5%nat /\
  addPadding (Some e) (unix 0) (unix 300) true
  = Ok (None, Some (ix [blank 0; kx 5 9 3 7 10 60; blank 120; kx 7 8 6 6 20 180])) /\
  ~ aligned (iCandles e) (unix 30) (iInterval e) 5 /\
  addPadding (Some e) (unix 30) (unix 330) true = Ok (Some ErrNotAligned, Some e).
Proof.
  cbv zeta. split; [discriminate|]. split; [|split; [|split; [|split; [|split]]]].
  - intros [|[|i]] [|[|[|j]]] ci cj H H1 H2; cbn in H1, H2; try discriminate; try lia; try (destruct i; discriminate); try (destruct j; discriminate).
    injection H1 as <-. injection H2 as <-. reflexivity.
  - intros c k [<-|[<-|[]]] _ _; [exists 1%nat|exists 3%nat]; split; try lia; reflexivity.
  - reflexivity.
  - reflexivity.
  - intros H. destruct (H (kx 5 9 3 7 10 60) 4%nat) as (j & Hj & Ht); [cbn; auto|lia|reflexivity|].
    do 5 (destruct j as [|j]; [discriminate|]). lia.
  - reflexivity.
Qed.

(** ** C32 *)
(** float64.  An item of n candles, one every s seconds from t0, is converted to
    k times its interval; k divides n and t0 is a multiple of the new interval. *)
Theorem C32_aggregates (L : MathLib) (now : Z) (e : @Item (B64 L)) (t0 s : Z) (k : nat) :
  let cs := iCandles e in let n := length cs in let newInterval := Z.of_nat k * (s * second) in
  0 < s -> (2 <= k)%nat -> (k <= n)%nat -> (n mod k = 0)%nat ->
  iInterval e = s * second -> evenly cs t0 s -> priced cs ->
  (exists a, unix t0 = zero_time + a * newInterval) ->
  set_times (unix t0) (unix (t0 + Z.of_nat n * s)) ->
  (Z.of_nat n + Z.of_nat k) * s * second <= max_dur ->
  exists cs', ConvertToNewInterval now (Some e) newInterval =
      Ok (inr (mkPItem (iExchange e) newInterval "" "" (map Some cs'))) /\
    length cs' = (n / k)%nat /\
    forall j c, nth_error cs' j = Some c -> aggregates (group cs k j) (group cs k j) c.
Proof. exact (@convert_exact L now e t0 s k). Qed.
Print Assumptions C32_aggregates.
(** When k does not divide n, the candles left over still count for the high and
    the low of the last new candle. *)
Theorem C32_leftovers_partial (L : MathLib) (now : Z) (e : @Item (B64 L)) (t0 s : Z) (k : nat) :
  let cs := iCandles e in let n := length cs in let newInterval := Z.of_nat k * (s * second) in
  0 < s -> (2 <= k)%nat -> (k <= n)%nat ->
  iInterval e = s * second -> evenly cs t0 s -> priced cs ->
  (exists a, unix t0 = zero_time + a * newInterval) ->
  set_times (unix t0) (unix (t0 + Z.of_nat n * s)) ->
  (Z.of_nat n + Z.of_nat k) * s * second <= max_dur ->
  exists cs', ConvertToNewInterval now (Some e) newInterval =
      Ok (inr (mkPItem (iExchange e) newInterval "" "" (map Some cs'))) /\
    length cs' = (n / k)%nat /\
    forall j c, nth_error cs' j = Some c ->
      aggregates (group cs k j) (if (S j =? n / k)%nat then skipn (j * k) cs else group cs k j) c.
Proof. exact (@convert_spec (B64 L) (B64_int L) (B64_ord L) now e t0 s k). Qed.
Print Assumptions C32_leftovers_partial.

Definition six : @Item EX := ix [kx 1 9 1 2 10 120; kx 2 5 2 3 20 180; kx 3 4 3 4 30 240; kx 4 6 2 5 40 300].
Example C32_hyp :
  (let cs := iCandles six in evenly cs 120 60 /\ priced cs /\
     (exists a, unix 120 = zero_time + a * (2 * (60 * second))) /\ set_times (unix 120) (unix (120 + 4 * 60))) /\
  exists r1 r2, ConvertToNewInterval 0 (Some six) (120 * second) =
    Ok (inr (mkPItem "X" (120 * second) "" "" [Some r1; Some r2])) /\
    cOpen r1 = fz 1 /\ cHigh r1 = fz 9 /\ cLow r1 = fz 1 /\ cClose r1 = fz 3 /\ cVolume r1 = fz 30 /\ cTime r1 = 120 /\
    cOpen r2 = fz 3 /\ cHigh r2 = fz 6 /\ cLow r2 = fz 2 /\ cClose r2 = fz 5 /\ cVolume r2 = fz 70 /\ cTime r2 = 240.
Proof.
  split; [cbv zeta; split; [|split; [|split]]|].
  - intros k c H. do 4 (destruct k as [|k]; [injection H as <-; reflexivity|]). destruct k; discriminate.
  - repeat constructor.
  - exists 517796641. reflexivity.
  - repeat split; discriminate.
  - do 2 eexists. split; [reflexivity|]. repeat split.
Qed.

(** The leftover candle (high 99) belongs to no complete group, but its high
    becomes the last new candle's. *)
Theorem C32_leftovers_refuted :
  exists r1, ConvertToNewInterval 0 (Some (ix [kx 1 9 1 2 10 120; kx 2 5 2 3 20 180; kx 3 99 3 4 30 240])) (120 * second)
  = Ok (inr (mkPItem "X" (120 * second) "" "" [Some r1])) /\ cHigh r1 = fz 99 /\ cClose r1 = fz 3 /\ cVolume r1 = fz 30.
Proof. eexists. split; [reflexivity|]. repeat split. Qed.
Print Assumptions C32_leftovers_refuted.
(** An item without candles, and one starting at the epoch, make it panic. *)
Theorem C32_panics_refuted (N : Num) (now newInterval : Z) (e : Item) :
  (iCandles e = [] -> 0 < iInterval e < newInterval -> newInterval mod iInterval e = 0 ->
   ConvertToNewInterval now (Some e) newInterval = Panic) /\
  ConvertToNewInterval now (Some (ix [kx 1 9 1 2 10 0; kx 2 5 2 3 20 60])) (120 * second) = Panic.
Proof. exact (conj (@convert_empty N now e newInterval) eq_refl). Qed.
Print Assumptions C32_panics_refuted.
(** Otherwise it returns, whatever the candles. *)
Theorem C32_returns (L : MathLib) (now : Z) (e : @Item (B64 L)) (newInterval : Z) (first last : Candle) :
  get (iCandles e) 0 = Ok first -> get (iCandles e) (len (iCandles e) - 1) = Ok last ->
  let start := unix (cTime first) in let end_ := unix (cTime last) + iInterval e in
  set_times start end_ -> Z.abs (end_ - start) + newInterval <= max_dur -> len (iCandles e) < 2 ^ 49 ->
  exists r, ConvertToNewInterval now (Some e) newInterval = Ok r.
Proof. exact (@convert_total (B64 L) (B64_int L) now e newInterval first last). Qed.
Print Assumptions C32_returns.
Theorem C32_errors (N : Num) (now : Z) (e : Item) (newInterval : Z) :
  ConvertToNewInterval now (None : option Item) newInterval = Ok (inl ErrNilKline) /\
  (iInterval e <= 0 \/ newInterval <= 0 -> ConvertToNewInterval now (Some e) newInterval = Ok (inl ErrInvalidInterval)) /\
  (0 < newInterval <= iInterval e -> ConvertToNewInterval now (Some e) newInterval = Ok (inl ErrCanOnlyUpscale)) /\
  (0 < iInterval e < newInterval -> newInterval mod iInterval e <> 0 ->
     ConvertToNewInterval now (Some e) newInterval = Ok (inl ErrWholeNumberScaling)) /\
  (forall first last, 0 < iInterval e < newInterval -> newInterval mod iInterval e = 0 ->
     get (iCandles e) 0 = Ok first -> get (iCandles e) (len (iCandles e) - 1) = Ok last ->
     let window := unix (cTime last) + iInterval e - unix (cTime first) in
     min_dur <= window <= max_dur ->
     (Z.quot window (iInterval e) <> len (iCandles e) ->
        ConvertToNewInterval now (Some e) newInterval = Ok (inl ErrNotPadded)) /\
     (Z.quot window (iInterval e) = len (iCandles e) -> len (iCandles e) < newInterval / iInterval e ->
        ConvertToNewInterval now (Some e) newInterval = Ok (inl ErrInsufficientData))).
Proof. exact (@convert_errors N now e newInterval). Qed.
Print Assumptions C32_errors.

Example C32_error_hyp :
  ConvertToNewInterval 0 (Some six) (90 * second) = Ok (inl ErrWholeNumberScaling) /\
  ConvertToNewInterval 0 (Some six) (300 * second) = Ok (inl ErrInsufficientData) /\
  ConvertToNewInterval 0 (Some (ix [kx 1 9 1 2 10 120; kx 2 5 2 3 20 240])) (120 * second) = Ok (inl ErrNotPadded).
Proof. repeat split. Qed.

(** ** C33 *)
(** float64: the number of ranges is computed in floating point.  [s0], [e0] are
    the rounded window, C intervals long. *)
Theorem C33_partition (L : MathLib) (now start end_ interval limit s0 e0 C : Z) :
  set_times start end_ -> start < end_ -> 0 < interval -> 0 <= limit < 2 ^ 32 ->
  nearest start interval s0 -> nearest end_ interval e0 -> e0 = s0 + C * interval -> e0 - s0 <= max_dur ->
  C < 2 ^ 50 -> (limit = 0 -> C < 2 ^ 32) ->
  exists h, CalculateCandleDateRanges (N := B64 L) now start end_ interval limit = Ok (inr h) /\
    hStart h = CreateIntervalTime s0 /\ hEnd h = CreateIntervalTime e0 /\
    intervals h = tab (Z.to_nat C) (interval_at s0 interval) /\
    Forall range_spans (hRanges h) /\
    (0 < limit -> Forall (fun r => len (irIntervals r) <= limit) (hRanges h)) /\
    (limit = 0 -> length (hRanges h) = 1%nat).
Proof. exact (@ranges_partition (B64 L) (B64_int L) now start end_ interval limit s0 e0 C). Qed.
Print Assumptions C33_partition.
(** every window has exactly one rounded window, a whole number of intervals long *)
Theorem C33_rounded_window (start end_ interval : Z) : 0 < interval -> start <= end_ ->
  exists s0 C, 0 <= C /\ nearest start interval s0 /\ nearest end_ interval (s0 + C * interval) /\
    forall s1 e1, nearest start interval s1 -> nearest end_ interval e1 -> s1 = s0 /\ e1 = s0 + C * interval.
Proof. exact (@rounded_window start end_ interval). Qed.
Print Assumptions C33_rounded_window.
Theorem C33_errors (N : Num) (now start end_ interval limit : Z) :
  (~ set_times start end_ -> CalculateCandleDateRanges now start end_ interval limit = Ok (inl ErrDateUnset)) /\
  (set_times start end_ -> end_ < start -> CalculateCandleDateRanges now start end_ interval limit = Ok (inl ErrStartAfterEnd)) /\
  (set_times start end_ -> end_ = start -> CalculateCandleDateRanges now start end_ interval limit = Ok (inl ErrStartEqualsEnd)) /\
  (set_times start end_ -> start < end_ -> interval <= 0 ->
     CalculateCandleDateRanges now start end_ interval limit = Ok (inl ErrInvalidInterval)).
Proof. exact (@ranges_errors N now start end_ interval limit). Qed.
Print Assumptions C33_errors.

Example C33_hyp :
  (set_times (unix 130) (unix 600) /\ nearest (unix 130) (60 * second) (unix 120) /\
   nearest (unix 600) (60 * second) (unix 600) /\ unix 600 = unix 120 + 8 * (60 * second)) /\
  exists h, CalculateCandleDateRanges (N := EX) 0 (unix 130) (unix 600) (60 * second) 3 = Ok (inr h) /\
    map (fun r => (toUnix (itTime (irStart r)), length (irIntervals r))) (hRanges h)
    = [(120, 3%nat); (300, 3%nat); (480, 2%nat)].
Proof.
  split.
  - split; [repeat split; discriminate|]. split; [|split; [|reflexivity]]; (split; [|split; vm_compute; congruence]).
    + exists (1035593282). reflexivity.
    + exists (1035593290). reflexivity.
  - eexists. split; reflexivity.
Qed.

(** ** C34 *)
Theorem C34_GetOHLC (N : Num) (cs : list Candle) :
  GetOHLC cs = Ok (mkOHLC (map cOpen cs) (map cHigh cs) (map cLow cs) (map cClose cs)
                          (map cVolume cs) (map cBull cs) (map cTime cs)).
Proof. exact (GetOHLC_spec cs). Qed.
Print Assumptions C34_GetOHLC.
Theorem C34_typical_prices (N : Num) (cs : list Candle) :
  HL2 cs = Ok (map (fun c => (cHigh c +~ cLow c) /~ ofZ 2) cs) /\
  HLC3 cs = Ok (map (fun c => (cHigh c +~ cLow c +~ cClose c) /~ ofZ 3) cs) /\
  OHLC4 cs = Ok (map (fun c => (cOpen c +~ cHigh c +~ cLow c +~ cClose c) /~ ofZ 4) cs).
Proof. exact (conj (percandle_spec _ cs) (conj (percandle_spec _ cs) (percandle_spec _ cs))). Qed.
Print Assumptions C34_typical_prices.
(** exact arithmetic *)
Theorem C34_between (cs : list (@Candle XR)) (vs : list (@F XR)) (k : nat) (c : Candle) (v : @F XR) :
  HL2 cs = Ok vs \/ HLC3 cs = Ok vs \/ OHLC4 cs = Ok vs ->
  nth_error cs k = Some c -> nth_error vs k = Some v -> well_formed c ->
  (cLow c <=~ v) = true /\ (v <=~ cHigh c) = true.
Proof. exact (@typical_between cs vs k c v). Qed.
Print Assumptions C34_between.

Example C34_hyp : well_formed (mkCandle (N := XR) (Fin 0) 0 (Fin 4) (Fin 5) (Fin 3) (Fin 6) (Fin 1) (Fin 0) true 60) /\
  HL2 [kx 4 6 3 5 1 60; kx 4 7 3 5 1 120] = Ok [fq 9 2; fz 5].
Proof. split; [|reflexivity]. exists 4%R, 6%R, 3%R, 5%R. repeat split; Lra.lra. Qed.

(** ** C35 *)
(** Low is taken with math.Max: it can exceed the close. *)
Theorem C35_low_refuted :
  exists k, ToHeikinAshi (ix [kx 10 12 5 10 1 60]) = Ok (mkItem "X" (60 * second) "" "" [k]) /\
    (cLow k >~ cClose k) = true.
Proof. eexists. split; reflexivity. Qed.
Print Assumptions C35_low_refuted.
(** What holds, in exact arithmetic: nothing exceeds the high. *)
Theorem C35_high_partial (e : @Item XR) : Forall well_formed (iCandles e) ->
  exists e', ToHeikinAshi e = Ok e' /\ map cTime (iCandles e') = map cTime (iCandles e) /\
    Forall (fun k => (cOpen k <=~ cHigh k) = true /\ (cClose k <=~ cHigh k) = true /\
                     (cLow k <=~ cHigh k) = true) (iCandles e').
Proof. exact (@HeikinAshi_high e). Qed.
Print Assumptions C35_high_partial.

Example C35_hyp : well_formed (mkCandle (N := XR) (Fin 0) 0 (Fin 10) (Fin 10) (Fin 5) (Fin 12) (Fin 1) (Fin 0) true 60).
Proof. exists 10%R, 12%R, 5%R, 10%R. repeat split; Lra.lra. Qed.

(** ** C36 *)
(** [h'] is [h] with any flags set. *)
Theorem C36_HasDataAtDate (L : MathLib) (now start end_ s limit s0 e0 C : Z) (h h' : IntervalRangeHolder) (t : Z) :
  set_times start end_ -> start < end_ -> 0 < s -> 0 <= limit < 2 ^ 32 ->
  nearest start (s * second) s0 -> nearest end_ (s * second) e0 -> e0 = s0 + C * (s * second) -> e0 - s0 <= max_dur ->
  C < 2 ^ 50 -> (limit = 0 -> C < 2 ^ 32) ->
  CalculateCandleDateRanges (N := B64 L) now start end_ (s * second) limit = Ok (inr h) -> same_but_flags h h' ->
  (toUnix s0 <= toUnix t < toUnix e0 ->
     exists k d, nth_error (intervals h') k = Some d /\
       itTicks (idStart d) <= toUnix t < itTicks (idEnd d) /\
       HasDataAtDate h' t = idHasData d /\
       forall k' d', nth_error (intervals h') k' = Some d' ->
         itTicks (idStart d') <= toUnix t < itTicks (idEnd d') -> k' = k) /\
  (toUnix t < toUnix s0 \/ toUnix e0 <= toUnix t -> HasDataAtDate h' t = false).
Proof. exact (@has_data_spec (B64 L) (B64_int L) now start end_ s limit s0 e0 C h h' t). Qed.
Print Assumptions C36_HasDataAtDate.

Example C36_hyp : exists h,
  CalculateCandleDateRanges (N := EX) 0 (unix 120) (unix 240) (60 * second) 1 = Ok (inr h) /\
  let mark r := mkIR (irStart r) (irEnd r) (map (fun d => mkID (idStart d) (idEnd d) (itTicks (idStart d) =? 180)) (irIntervals r)) in
  let h' := mkIRH (hStart h) (hEnd h) (map mark (hRanges h)) (hLimit h) in
  same_but_flags h h' /\ HasDataAtDate h' (unix 130) = false /\ HasDataAtDate h' (unix 239) = true /\
  HasDataAtDate h' (unix 240) = false.
Proof. eexists. split; [reflexivity|]. cbv zeta. split; [|repeat split]. repeat split; repeat constructor. Qed.
