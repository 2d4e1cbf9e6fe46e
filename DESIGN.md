# Formal model of idoall/stockindicator in Rocq (Coq 8.16.1)

## 1. What is modelled and how

The code is a library of pure(ish) numeric kernels, small containers, candle
utilities, channel helpers, and about fifty "indicator" objects that combine
them.  The model is a shallow embedding, function by function, in
`rocq/theories/`.  Every definition carries the file and lines it models.

* **Panics are values.**  `res A = Ok a | Panic`.  Slice reads and writes are
  bounds checked (`get`, `set`), `make` with a negative length, integer
  division by zero, nil dereference and failed type assertions panic.  A loop
  `for i := lo; i < hi; i++` is the combinator `for_ lo hi body`, so index
  arithmetic is modelled literally, over `Z` (Go `int` without wrap-around).
* **Numbers.**  Code that computes with `float64` is written once, over a plain
  record of operations `Num` (add, sub, mul, div, sqrt, abs, <, ==, <=, NaN/Inf
  tests, conversion from int, decimal literals ...).  It is an ordinary
  argument, not a functor.  Two instances are used:
  * `B64` - IEEE-754 binary64, bit exact, from the axiom-free computable
    `Coq.Floats.SpecFloat` (53, 1024).  Order facts and refutations by
    `vm_compute` are about this instance.
  * `XR` - exact arithmetic over the reals extended with NaN and the two
    infinities, so that division by zero and the NaN/Inf guards in the code keep
    their meaning.  Algebraic laws ("the mean of the window") hold here.  In
    float64 they hold up to rounding: C85 bounds the rounding error of moving
    sums and averages, and ranges such as "RSI is in [0,100]" are proved for
    float64 too wherever they survive rounding (SpecNum.v, FloatBounds.v), and
    refuted by a concrete float64 history where they do not.
  Structural theorems (lengths, panics, no look-ahead, signal logic, caching)
  quantify over every `Num`, hence hold bit-exactly for float64.
* **Objects.**  An indicator is a record; a method that mutates returns the new
  record.  Constructors, `Calculation`, `GetData`, `AnalysisSide` are modelled
  with the code's own "compute when empty" caching.
* **Channels.**  Goroutines and channels are a small-step transition system with
  explicit buffers, closing, blocking receive/send; theorems quantify over all
  executions (schedules).
* **Time** is `Z` nanoseconds since Go's zero time; `Unix()` floors to seconds.

## 2. Properties: plan

See `properties.jsonl` for the statements.  Plan per property:

| id | model | proof |
|----|-------|-------|
| C01-C02 | inductive tree, Insert/Remove/Min/Max as in bst.go | invariant (weak search order) + refinement to a list multiset, for every total preorder; instance binary64 without NaN; NaN refuted by computation |
| C03 | list queue | refinement by induction on histories |
| C04-C07 | index-faithful loops, ring buffer, tree | loop invariant: tree multiset = window; instance binary64 |
| C08-C19 | index-faithful loops | closed form of every entry by loop invariant (all Num); algebra in XR |
| C20-C23 | same | closed form + exact panic condition |
| C24 | same | prefix stability from the closed forms, all Num |
| C25 | Stochastic | XR bound from C04, C20 |
| C26-C27 | Side, RunStrategies | enumeration, induction |
| C28-C36 | candle list functions | induction on lists; refutations by computation |
| C37-C38 | transition system | invariant + measure, all schedules |
| C39-C41 | indicator objects | composition of C24-style lemmas; call-sequence induction |
| C42-C64 | indicator recurrences | invariants over the scan; XR and B64 for bounds; closed form of every row; refutations on B64 |
| C65-C66 | BreakoutProbability.go | closed form of the counters by loop invariant; refuted where the code counts the wrong bars |
| C67-C70, C83 | SmartMoneyConcepts.go as an explicit state machine (Smc.v) | the state machine is proved equal to descriptions of the candle history that mention no state (SpecSmc.v, SpecSmc2.v): swing points, breaks, order blocks, labels, strong and weak levels |
| C71-C72 | Duplicate and CheckEquals on the transition system | confluence (all schedules reach the same end) plus one run |
| C73-C82, C84 | closed forms of the remaining indicators | `tab` calculus: every intermediate slice is a function of the index (IndForms*.v), then algebra in XR |
| C85 | Sum, Sma, Ema in float64 | running error analysis over Flocq's rounding operator (FloatError.v) |
| C86 | RoundDigit, RoundDigits | Flocq for float64 including math.Round, Chan.v for the channel version |
| C87 | all indicators on rescaled candles | a relation between two runs, with dimensions (Sim*.v), instantiated by scaling over the extended reals (Units.v); float64 counterexamples by computation |
| C88 | all indicators on candles that differ in unused fields | the same relation instantiated by equality (FieldUse.v), any arithmetic |
| C89 | SuperTrend and PivotPointSuperTrend rows | scan invariant linking each row to the ATR and pivot lists; induction over the bars for the centre |
| C90 | every Calculation and AnalysisSide | `runs r P bad` (either bad and Panic, or not bad and Ok with P) composed along bind for the ta functions and the row loops; catalogue table |
| C91 | utils/ta/ta.go, utils/regression.go | as C90; `runs_loop`: a loop panics iff some iteration's condition holds |
| C92 | every Calculation | a unary logic (`Kp P m`: if the call returns, the result satisfies P) composed along bind gives finiteness of every number; the four exceptions by the closed forms of the rows; catalogue table |
| C93 | constructors, Calculation, GetData, AnalysisSide of every type | `session`: method calls interleaved with changes of the candle list; copying types reduce to C41; loop lemmas for a signal slice longer or shorter than the rows |
| C94 | GenerateNumbers, Cum, Mean, ComputeCCI, TotalCandlesPerInterval, IntervalTime.Equal, StartEndTimeCheck, Clear | direct: a loop that fills a slice entry by entry crashes iff some entry does; rounding to the nearest integer; heap invariant for Clear |
| C95 | rows of h1 ++ w against rows of h2 ++ w for the windowed indicators, Ema as the one that never forgets, float64 Sma and Ema | closed forms: running sum = sum of the window, extremes of equal windows are equal, uniqueness of least squares; induction on the common part for Ema; C85 rounding bounds for float64 |
| C96 | Max, Min, Highest, Lowest, Ema, Rma (exact and float64), Sum, Sma, Wma (exact) on two series, one nowhere above the other | order laws for extremes; each rounded operation is monotone (NaN compares false), induction over the bars; window sums |
| C97 | closed forms of the averages, bands, oscillators and signals on a chart and on the same chart with a constant added to all prices (exact arithmetic) | numbers related by a fixed difference: sums add the differences, comparisons of equally moved numbers agree; induction over the bars |
| C98 | the same closed forms and signal rules on a chart and on the chart with every price x replaced by c - x, high and low exchanged (exact arithmetic) | numbers related by a fixed sum; comparisons of mirrored numbers are reversed; maxima become minima; signals from C64's rules, which exclude each other; counter-examples for true range, Keltner bands, Boll and Rsi signals |
| C99 | the closed forms, signal rules and trailing-stop steps on a list of candles that all carry one price (exact arithmetic); ReversalSignals, Kdj, WilliamsR, ForceIndex, Vortex, ADX, MoneyFlowIndex; TraderXO in float64 | every building block keeps a constant constant, by induction over the bars; the signal rules of C64 cannot fire on equal numbers; invariants for the stops (line is 0 or the price, direction never turns); counter-examples proved for all flat markets, and one float64 computation |
| C100 | the Name formats of the constructors over a model of %d (Report.v); letters before the first digit identify the type, decimal numerals separated by '-' can be read back; clashes computed for SuperTrend, UTBot, EMAVegas |
| C101 | main.go over any candle list (Report.v); RunStrategies on fresh objects, C40 for the lengths, C90 for the crash, C39 for appended candles |
| C102 | the values every AnalysisSide loop writes; Side.String over a list |
| C103 | Klines.v's memory of candles and pointer arrays, extended by the functions that return new items and by everything a program can do with items (KlineMem.v); arrays and candles reachable from a pool are closed under every step, the rest is framed; ToHeikinAshi and ConvertToNewInterval in memory simulate their list versions |
| C104 | the same memory: in-place filters only write the front of the array, so what a second item on the array shows is computed exactly |
| C105 | rows in memory (RowMem.v): arrays with capacity, `append` in place or moved with any spare room, the data fields of any number of objects and the slices the caller holds; invariant over all histories: no two objects share an array and a slice handed out is never longer than its object's data in the same array |
| C106 | the same chart as float64 candles and as candles of the reals they stand for (SpecTies.v); a relation "within e, at most M" carried through addition, subtraction, scaling and the EMA recursion (contraction, so no growth with the history); comparisons agree when the exact sides are further apart than the errors |
| C107 | goroutines as programs of single accesses (Threads.v: load and store of a data field, append, make, reads and writes of rows), interleaved in any order; projection of a schedule on one goroutine that keeps to its own objects; explicit schedules for a shared new object |
| C108 | from the specification of ConvertToNewInterval proved for C32: groups of groups of candles are groups, maxima of maxima are maxima, sums of sums are sums (RescaleTools.v) |
| C109 | keeping the first candle of each time commutes with any filter on times (induction on the list from its end); a permutation strictly ordered by time is unique |
| C110 | Interval.String with time.Duration.String and its two digit loops (Durations.v); a separate reader (SpecDur.v) reads back what the loops wrote: induction on the number of digits, then one step per unit |
| C111 | SmartMoneyConcepts (Smc.v) under the relational framework of Sim.v (SimSmc.v), instantiated with the scaling of Units.v; the constant 99999999 needs a relation of its own on the lows; the counterexample is computed in float64 |
| C112 | the bar loop of SmartMoneyConcepts on a chart and on its continuation: the first bars compute the same state (every step that succeeds on the shorter slices succeeds with the same result on the longer ones), and one later bar draws only what its close crosses; induction over the added bars |
| C113 | two runs of the bar loop of SmartMoneyConcepts with different settings, related by what must agree; induction over the bars |

Where the code violates a property, the property stays as a user would state it,
the theorem named `..._refuted` proves its negation on a concrete input (or on
every input), and the theorems beside it say what does hold.  All such
properties have the status `partial` in MANIFEST.json; none of them is partial
because a proof is unfinished.

Not expressible here: JSON decoding (sonic), decimal formatting (shopspring),
file reading, `fmt` output of floats, wall-clock time, performance.

## 3. Which code is modelled

| code | model |
|------|-------|
| container/bst/bst.go, container/queue/queue.go, container/comparable.go | Containers.v |
| utils/ta/ta.go, all functions | Ta.v; SmaT in Chan.v |
| utils/regression.go | Regression.v |
| utils/Side.go, utils/interface.go (RunStrategies, strategies) | Sides.v |
| utils/klines/*.go, utils/commonutils StartEndTimeCheck and time helpers | Klines.v; items in shared memory in KlineMem.v |
| the data field of indicator objects as a Go slice, GetData handing it out, Clear | RowMem.v (everywhere else rows are lists) |
| GetData and the writes of Calculation to the data field, access by access, in concurrent goroutines | Threads.v |
| helpertools: Apply, Chan2Slice, CheckEquals, Drain, Duplicate, Operate, Pipe, Shift, Skip, Slice2Chan | Chan.v |
| helpertools: RoundDigit, RoundDigits | RoundDigit.v |
| utils/klines/kline.go Interval.String, Interval.Duration, the named intervals; time.Duration.String | Durations.v |
| trend/*.go except the two below | IndBase.v, IndTrend.v |
| trend/BreakoutProbability.go | BreakProb.v |
| trend/SmartMoneyConcepts.go, SmartMoneyConcepts_type.go | Smc.v |
| channel/*.go | IndChannel.v |
| volume/*.go | IndVolume.v |
| oscillator/*.go | IndOsc.v |
| main.go, the Name of every type with an AnalysisSide method | Report.v |

Not modelled: utils/helper.go (GetTestKlineItem, embedded test
candles); commonutils FloatFromString, FormatDecimalFloat64, ReadFile,
JSONDecode (commonutils.If is inlined where it is called); the Name of
the types without AnalysisSide; fmt's text of floats and times; the int, int8, ... instances of generic containers other than int64.

Simplifications, also noted at the definitions:

* Go `int` is `Z`: no wrap-around at 2^63.  Every index and count in the code is
  bounded by the length of a slice plus a period.
* Slices are values, except in the memory models of package klines (Klines.v from
  `Mem` on, and KlineMem.v), where backing arrays, capacity and candle pointers
  are explicit.  Elsewhere capacity, sharing of backing arrays between slices and
  aliasing of candle pointers are not modelled; the code mutates no candle that
  it is given.
* `time.Time` is `Z` nanoseconds since Go's zero time without location and
  monotonic reading; `time.Duration` is `Z` nanoseconds.
* math.Pow and math.Atan of float64 are an arbitrary pair of functions
  (`MathLib`), so theorems about `B64 L` hold for every implementation;
  in XR they are the real functions.
  Every other function of package math the code calls (Abs, Max, Min, Sqrt,
  Round, IsNaN, IsInf) is fixed by IEEE-754 or Go's documentation and modelled
  exactly.
* float64 operations are rounded one by one.  Go permits a compiler to fuse
  `x*y + z` into one rounding (it does on arm64, ppc64, s390x, and on amd64 with
  GOAMD64=v3); bit-exact float64 theorems describe an unfused build.
* All goroutines of a pipeline exist from the start (one started later is one
  not scheduled yet); channel values of one pipeline have one type.
* Nil candle lists and nil receivers are outside the model.
* Goroutines that share objects (C107): accesses are atomic and interleave
  (sequential consistency).  This is what Go promises to programs without data
  races, such as those of C107_own_object and C107_shared_once_filled; a racy
  program may misbehave in further ways, such as a torn slice header.
  Types that set the fields of a row one by one, or twice, are taken to write
  whole rows once, and the read of the previous row in volume/Obv.go:53-57 is left
  out (C107_independent holds for programs with any such accesses).

## 4. Trusted base

* Coq 8.16.1's kernel, and its virtual machine for `vm_compute`.
* The reading of the Go source into the definitions cited above, with the
  simplifications just listed.
* The standard library's axioms listed below.  `classic` and the axioms of the
  reals enter through `Reals` and Flocq's theorems on rounding.  No axiom is
  declared in this development: no `Axiom`, `Parameter`, section-less `Variable`
  or `Hypothesis`, no `Admitted`, no module type or functor.

What `Print Assumptions` reports for every theorem of MANIFEST.json
(generated by `tools/assumptions.py`; each property file also prints it below
every theorem):

<!-- assumptions -->
* no axioms (closed under the global context) - 284 theorems: C01_bst_is_multiset_float64, C01_bst_is_multiset_int64, C02_nan_breaks_bst_refuted, C02_bst_total_with_nan_partial, C03_queue_fifo, C03_queue_panics_iff_underflow, C03_queue_empty, C04_Max_is_window_maximum, C04_Min_is_window_minimum, C04_panics_iff, C05_Highest_Lowest, C05_empty_panics, C06_PivotHigh, C06_PivotLow, C07_pivot_extreme_refuted, C07_PivotMin_partial, C07_PivotMax_partial, C08_Sma_no_nan_no_ninf, C08_Sma_shape, C09_Sum_shape, C10_Ema_never_panics, C12_Rma_documentation_refuted, C12_Rma_recurrence_partial, C13_Wma_short_panics_any_float, C15_LinearReg_panics, C16_regression_values, C16_panics, C17_TRange_float, C18_Atr_short_panics_refuted, C19_MA_Dev_shape, C19_CCI_formula, C19_CCI_nonpositive_period_panics, C19_AiCoinCCI_ignores_factor, C20_one_slice, C20_two_slices, C21_Divide_finite, C22_Shift, C22_PercentDiff, C23_Cross, C23_never_both, C23_short, C24_one_series, C24_several_series, C26_refuted, C26_EMAVegas_refuted, C26_Ichimoku_refuted, C26_TraderXO_partial, C27_RunStrategies, C27_one_result_each, C28_RemoveDuplicates, C28_distinct_times, C28_idempotent, C29_RemoveOutsideRange, C29_Copy, C30_partial, C30_direction_refuted, C30_exists, C31_padding, C31_misaligned, C31_errors, C31_short_window_refuted, C32_leftovers_refuted, C32_panics_refuted, C32_errors, C33_rounded_window, C33_errors, C34_GetOHLC, C34_typical_prices, C35_low_refuted, C37_pipelines, C38_one_pair_partial, C38_refuted, C38_no_channels_refuted, C39_rows_partial, C39_sides, C39_Rma_refuted, C40_rows_partial, C40_sides, C40_times, C40_first_time_zero, C40_Rma_refuted, C41_reads, C41_Calculation_partial, C41_appends, C41_refuted, C42_panics_iff, C42_no_panic_refuted, C42_rising_window_refuted, C43_Macd, C44_panics_iff, C44_no_panic_refuted, C45_TR, C46_SuperTrend_partial, C46_alternate, C46_ratchet_refuted, C46_PivotPointSuperTrend_partial, C47_UTBot, C47_rule, C48_TraderXO, C49_Reversal_partial, C49_exclusive, C49_refuted, C50_BreakoutProbability, C50_meaning, C50_wins, C51_histories, C51_Add, C51_Remove, C51_Remove_absent_refuted, C51_Remove_absent_empties, C52_multiplier_refuted, C52_float_nan_refuted, C56_float_refuted, C57_OBV, C57_cases, C58_float_refuted, C59_NVI_partial, C59_refuted, C60_Williams_flat_refuted, C60_Stochastic_D_refuted, C61_lines_partial, C61_refuted, C62_formula, C63_APO, C63_AO, C63_PPO, C63_VolumeOscillator, C63_AccumulationDistribution, C63_Chaikin, C64_Rsi, C64_StochRsi, C64_Stoch, C64_Macd, C64_Kdj, C64_Cci, C64_AiCoinCCI, C64_StochasticHeat, C64_MFI, C64_APO, C64_AO, C64_Chaikin, C64_PPO, C64_Projection, C64_WilliamsR, C64_Boll, C64_Donchian, C64_Keltner, C64_Ichimoku, C64_SuperTrend, C64_PivotPointSuperTrend, C64_UTBot, C64_EMAVegas, C64_Camarilla, C64_TraderXO, C65_refuted, C67_bound_is_reached, C69_recalculation_refuted, C69_rows_need_swing_only, C69_recalculation_partial, C69_blocks_forgotten, C70_long_low_refuted, C71_duplicate, C71_sequential_readers_deadlock, C72_verdict, C72_equal_lengths, C72_odd, C73_Ma_is_Sma, C73_Ema, C73_Dema, C73_TraderXO, C73_EMAVegas, C73_Rma, C74_Rsi, C74_degenerate, C75_ForceIndex, C75_EaseOfMovement, C75_VolumePriceTrend, C75_VolumePriceTrend_empty, C77_float_refuted, C77_panics_iff, C78_formula, C78_average_refuted, C78_panics, C79_objects, C79_panics, C80_chandelier, C81_candles, C81_panics_iff, C82_formula, C82_wma_panics, C84_not_a_percentage, C86_overflow, C86_int_changed, C86_channel, C87_rsi_refuted, C87_stochrsi_refuted, C87_kdj_refuted, C87_supertrend_refuted, C88_values, C88_values_complete, C88_signals, C88_signals_camarilla, C88_signals_complete, C88_fields_needed, C88_SmartMoneyConcepts, C89_SuperTrend, C89_PivotPointSuperTrend, C90_complete, C90_rows, C90_sides, C90_defaults, C91_never, C91_windows, C91_slices, C91_places, C93_copies, C93_reads, C93_recalculated, C93_appended, C93_Obv_refuted, C93_new_candles_buy, C93_removed_candles_crash, C93_removed_candles_crash_Ichimoku, C94_ComputeCCI, C94_ComputeCCI_in_AiCoinCCI, C94_TotalCandlesPerInterval, C94_IntervalTime_Equal, C94_StartEndTimeCheck, C94_Clear, C99_TraderXO_float_refuted, C100_complete, C100_results, C100_type, C100_parameters_partial, C100_same_name_same_signals, C100_other_names, C100_refuted, C101_strategies, C101_crash, C101_lines, C101_append_only, C102_values, C102_text, C103_apart, C103_made, C103_origin, C103_HeikinAshi, C103_Convert, C104_RemoveDuplicates, C104_RemoveOutsideRange, C104_no_time_lost, C104_Sort, C104_Clear, C104_append, C105_given_rows_stay, C105_calls_only, C105_one_object, C105_writes_show, C105_appends_partial, C105_append_lost_refuted, C105_append_intrudes_refuted, C107_independent, C107_GetData_keeps, C107_own_object, C107_shared_once_filled, C107_first_row_only_refuted, C107_rows_twice_refuted, C107_zero_rows_refuted, C108_volumes_round, C109_either_order, C109_ranges_intersect, C109_range_again, C109_sort_unique, C109_sort_first_differs, C110_read_back, C110_distinct, C110_hours, C110_named, C111_units_refuted, C112_repaint, C112_rows_change, C113_levels, C113_block_number, C113_switched_off.
* `ClassicalDedekindReals.sig_forall_dec`, `FunctionalExtensionality.functional_extensionality_dep` - 4 theorems: C14_Variance_nonnegative, C17_true_range_meaning, C37_moving_average, C45_refuted.
* `ClassicalDedekindReals.sig_forall_dec`, `ClassicalDedekindReals.sig_not_dec`, `Classical_Prop.classic`, `FunctionalExtensionality.functional_extensionality_dep` - 292 theorems: C08_Sma_is_window_mean, C09_Sum_is_window_sum, C10_Ema_recurrence, C10_Ema_weights, C10_Ema_within_range_seen, C10_Ema_constant_and_linear, C11_Dema, C11_Dema_constant, C12_Rma_warmup_partial, C13_Wma_is_weighted_mean, C13_Wma_panics_iff, C14_Variance, C14_Variance_panics_iff, C14_StdDev, C14_SD, C15_LinearReg_is_least_squares, C16_LeastSquare, C16_MovingLeastSquare, C17_TRange_exact, C18_Atr_nonnegative_partial, C18_Atr_wilder, C19_MA_Dev_exact, C19_CCI_exact, C19_AiCoinCCI_exact, C20_Subtract_exact, C22_Diff_exact, C25_Stochastic, C32_aggregates, C32_leftovers_partial, C32_returns, C33_partition, C34_between, C35_high_partial, C36_HasDataAtDate, C39_float64, C42_range, C42_any_data, C42_never_falls, C42_never_rises, C42_rising_is_100, C43_float64, C44_bounds, C44_formulas, C44_J_exact, C45_true_range_iff, C50_float64, C50_exact, C52_exact, C52_ordered_exact, C52_never_crossed, C52_never_sell_refuted, C53_Donchian, C53_Donchian_middle_exact, C53_Keltner, C53_Keltner_symmetric, C54_range, C54_never_negative, C54_zero_at_top, C55_exact, C55_no_losses_refuted, C56_exact, C58_exact, C60_Williams, C60_Williams_formula, C60_Stochastic_K, C60_Stochastic_D_exact, C62_ordered, C62_mirror, C66_total, C66_short_panics, C66_negative_swing_panics, C67_order_blocks, C67_block_candles, C67_block_history, C67_early_blocks, C68_rows, C68_levels, C68_equal_levels, C69_GetData_cached, C70_kinds_partial, C70_long_low, C73_Ma_mean, C76_formula, C76_range, C76_panics_iff, C77_exact, C77_nonnegative, C78_range, C78_adx, C79_exact, C81_exact, C82_range, C83_strong_weak, C84_exact, C85_Sum_error, C85_Sma_error, C85_Ema_error, C85_spike_never_forgotten, C86_exact, C86_exact_laws, C86_float, C86_not_always_nearest, C86_int, C86_ta_version, C86_versions_agree, C87_values, C87_supertrend, C87_signals, C87_signals_camarilla, C87_complete, C89_centre_between, C90_float64, C91_PivotMax, C92_complete, C92_finite, C94_GenerateNumbers, C94_Cum_Mean, C95_Ma, C95_Vwma, C95_CMF, C95_Donchian, C95_Williams, C95_Stochastic, C95_EMV, C95_MFI, C95_Vortex, C95_Boll, C95_Cci, C95_LinearRegCandles, C95_Camarilla, C95_Ichimoku, C95_Sma_needs_every_candle, C95_Ema_never_forgets, C95_Ema_fades, C95_float_Sma, C95_float_Ema, C96_Max_Min, C96_Highest_Lowest, C96_Ema, C96_Rma, C96_Sum_Sma, C96_Wma, C96_Sma_float_refuted, C96_Dema_refuted, C97_Sma, C97_Ema, C97_TraderXO, C97_EMAVegas, C97_Atr, C97_Keltner, C97_Donchian, C97_Boll, C97_Macd, C97_APO, C97_AO, C97_Obv, C97_AD, C97_Chaikin, C97_CMF, C97_Vwma, C97_Rsi, C97_Kdj, C97_Williams, C97_Stochastic, C97_Vortex, C97_ADX, C97_Cci, C97_LinearRegCandles, C97_signals, C97_Rsi_signals, C97_channel_signals, C97_cross_signals, C97_first_bar_refuted, C98_Sma, C98_Ema, C98_TraderXO, C98_EMAVegas, C98_Donchian, C98_Boll, C98_Macd, C98_APO, C98_AO, C98_Obv, C98_AD, C98_Chaikin, C98_CMF, C98_Vwma, C98_Rsi, C98_Kdj, C98_Williams, C98_Stochastic, C98_Vortex, C98_ADX, C98_Cci, C98_LinearRegCandles, C98_sign_signals, C98_level_signals, C98_Macd_signals, C98_Keltner_middle, C98_middle_signals, C98_Kdj_signals, C98_Stochastic_signals, C98_TraderXO_signals, C98_EMAVegas_signals, C98_Atr_refuted, C98_Keltner_bands_refuted, C98_Boll_signals_refuted, C98_Rsi_signals_refuted, C98_Ichimoku_lines, C98_Ichimoku, C98_Ichimoku_signals, C98_Ichimoku_conversion_refuted, C99_Sma, C99_Ema, C99_TraderXO, C99_EMAVegas, C99_Donchian, C99_Atr, C99_Keltner, C99_Boll, C99_Macd, C99_APO, C99_AO, C99_PPO, C99_Obv, C99_NVI, C99_AD, C99_Chaikin, C99_CMF, C99_EMV, C99_VPT, C99_Ulcer, C99_Stoch, C99_Rsi, C99_StochRsi, C99_Camarilla, C99_Ichimoku, C99_Rsi_signals, C99_StochRsi_signals, C99_Stoch_signals, C99_Macd_signals, C99_APO_signals, C99_AO_signals, C99_Chaikin_signals, C99_PPO_signals, C99_Boll_signals, C99_Donchian_signals, C99_Keltner_signals, C99_Ichimoku_signals, C99_Cci_signals, C99_EMAVegas_signals, C99_Camarilla_signals, C99_TraderXO_signals, C99_UTBot, C99_UTBot_signals, C99_SuperTrend, C99_SuperTrend_signals, C99_PivotPointSuperTrend_signals, C99_Kdj_signals, C99_Kdj_refuted, C99_Williams_refuted, C99_Williams_signals, C99_Vwma, C99_Reversal_refuted, C99_Force_refuted, C99_Vortex_refuted, C99_ADX_refuted, C99_ADX, C99_LinearRegressionCandles, C99_Projection, C99_Projection_signals, C99_VolumeOscillator, C99_MFI, C99_MFI_volume_refuted, C99_StochasticHeat, C99_StochasticHeat_signals, C99_SmartMoneyConcepts, C106_APO, C106_AO, C106_Macd, C106_TraderXO, C106_Keltner, C106_Ema, C106_EMAVegas, C106_distance_needed, C106_Donchian, C106_Ichimoku, C108_two_steps, C108_two_steps_volumes, C108_part, C111_units_partial, C112_kept.
