{
 "C02": {
  "note": "Refuted: C02_nan_breaks_bst_refuted gives the histories; C02_bst_total_with_nan_partial is what still holds with NaN (no panic, sizes)."
 },
 "C07": {
  "note": "Refuted as stated: ties between both sides return the centre value, PivotMax ignores negative values. Proved: result is the value at the returned in-range position and is the extreme outside those two cases."
 },
 "C12": {
  "note": "Refuted: the first value never enters the running sum (entry 0 is 0). Proved: the recurrence for i >= p on any float arithmetic, and the exact warm-up values."
 },
 "C18": {
  "note": "Refuted: Atr panics whenever 2 <= period and len <= period. Proved: otherwise one entry per candle, >= 0 and Wilder's smoothing (exact arithmetic)."
 },
 "C30": {
  "note": "Refuted (C30_direction_refuted): the direction is inverted. C30_partial: permutation, and sorted in the opposite direction."
 },
 "C31": {
  "note": "Proved for intervals of at least one second and time-ordered candles, except that purgeOnPartial on a window shorter than one interval panics (C31_short_window_refuted)."
 },
 "C32": {
  "note": "Proved when k divides n (C32_aggregates, float64), with the documented errors (C32_errors) and totality on non-empty items (C32_returns). Refuted: leftover candles leak into the last high/low; an empty item or one starting at the epoch panics."
 },
 "C35": {
  "note": "Refuted: the low uses math.Max and can exceed the close. C35_high_partial: open, close and low never exceed the high (exact arithmetic)."
 },
 "C26": {
  "note": "Refuted for every input of 23 of the 25 strategies: skipped bars report the zero Side, which is Buy. TraderXO reports Hold; Camarilla skips no bar."
 },
 "C39": {
  "note": "Proved for rows and sides of all 45 types but Rma (any float arithmetic; ProjectionOscillator up to 2^53 candles). Refuted for Rma, which reports 2n rows."
 },
 "C40": {
  "note": "Proved for rows, sides and row times of all 45 types but Rma, which reports 2n rows; row 0 of PivotPointSuperTrend, UTBot and BreakoutProbability carries the zero time."
 },
 "C41": {
  "note": "Proved: reads are pure for all types; Calculation is idempotent for the 19 types that replace their data. Refuted for the 26 types that append."
 },
 "C64": {
  "note": "All strategies; the TraderXO rule needs the order laws of float64."
 },
 "C59": {
  "note": "Refuted: the index also moves on bars with equal volume (C59_refuted). C59_NVI_partial: the rule the code follows, for every float arithmetic."
 },
 "C61": {
  "note": "Refuted: the conversion line takes its high over 9 bars whatever period is configured (C61_refuted). C61_lines_partial: every line, with that window."
 },
 "C46": {
  "note": "Refuted: the stop can move against the trend when the previous close was not beyond it (C46_ratchet_refuted). Proved: direction, flips, markers, alternation and the ratchet otherwise."
 },
 "C49": {
  "note": "Refuted as worded: equal closes count towards Sell (C49_refuted). C49_Reversal_partial: the exact rule with its extra condition on lows and highs; C49_exclusive."
 },
 "C65": {
  "note": "Refuted: the code counts bars whose low stayed above the level (C65_refuted). C50_meaning states exactly what is counted."
 },
 "C50": {
  "note": "Line count, percentages in [0,100] (float64 and exact), wins + losses, and the meaning of every line; for every series and parameter."
 },
 "C42": {
  "note": "Proved in float64 and exact arithmetic: every value is a number in [0,100]; 0 on a history that never rises, 0 or 100 on one that never falls, 100 once every step is at least 1e-14 (exact). Refuted: it panics when the period equals the number of candles (C42_panics_iff), and only the whole history, not the window, decides the 100."
 },
 "C44": {
  "note": "Proved: bounds and formulas in both models, J exact. Refuted: period 1 panics on any candle (C44_panics_iff says exactly when)."
 },
 "C45": {
  "note": "Refuted: the absolute values are missing, so after a gap down the reported TR is too small. Proved: the formula it does compute, and that it is the true range exactly when the previous close is not above the high."
 },
 "C60": {
  "note": "Refuted twice: Williams %R is NaN on a flat window, and float64 rounding lets stochastic D fall below 0. Proved: %R in [-100,0] on every other window and K in [0,100], in both models; D in [0,100] exactly."
 },
 "C52": {
  "note": "Refuted: the multiplier is ignored (bands are one deviation wide), no bar is ever Sell, Buy fires above the upper band, and in float64 equal closes can give NaN bands. Proved: middle = window mean, MD = window standard deviation, bands symmetric and ordered (exact); never crossed in either model."
 },
 "C55": {
  "note": "Proved in exact arithmetic: the formula and [0,100]. Refuted: with no negative flow it is 0, not 100. Float64: math.Pow is an abstract function of the model, no float64 bound is claimed."
 },
 "C56": {
  "note": "Proved in exact arithmetic with the defining formula. Refuted in float64: rounding gives -1.0000000000000002 on well-formed candles."
 },
 "C58": {
  "note": "Proved in exact arithmetic with the defining formula. Refuted in float64: the running sums keep rounding errors of bars that left the window."
 },
 "C51": {
  "note": "Refuted in one point: Remove of a block that is not in the list returns an empty list. Proved: no duplicates after any history of operations, Add puts new blocks first and ignores known ones, Remove of a listed block deletes exactly it."
 },
 "C69": {
  "note": "Refuted: Clear keeps the swing directions, so a second Calculation can draw other levels. Proved: the rows depend on nothing else of an earlier run, so they are the same again when that run ended with both directions as in a new object (C69_recalculation_partial); the old rows and order blocks have no influence at all; GetData after Calculation returns the calculated rows."
 },
 "C70": {
  "note": "Refuted for long swing lows: the code tests the short trend (C70_long_low says exactly what it draws). Proved for the other six kinds, completely: what each row shows."
 },
 "C37": {
  "note": "All pipelines built from Slice2Chan/any closed channel, Apply, Operate, Shift, Skip, Pipe, SmaT and Chan2Slice, of any shape and any capacities; values of one type per pipeline. Excluded: a Shift or SmaT whose make(chan, cap+count) gets a negative size (panics before any goroutine runs)."
 },
 "C38": {
  "note": "Refuted with two pairs (the first pair ends and hides a difference in the second) and with no channels (never returns); holds for one pair. What CheckEquals does decide is C72."
 },
 "C77": {
  "note": "Proved in exact arithmetic. Refuted in float64: the running sums keep rounding errors, VI+ can become negative."
 },
 "C78": {
  "note": "Formulas proved for both number models, ranges in exact arithmetic. Refuted: while the market has not moved the directional index is 0/0 = NaN and the running SMA then answers 0 for good (C78_adx says exactly when the ADX is the mean)."
 },
 "C73": {
  "note": "Ma/Sma, Ema, Dema, TraderXO, EMA Vegas and Rma objects for all parameters; Dema needs the arithmetic laws float64 has."
 },
 "C76": {
  "note": "Both number models; prices bounded as in SpecNum, periods up to 2^46."
 },
 "C79": {
  "note": "Objects and panics for both number models, closed form in exact arithmetic with equal periods."
 },
 "C80": {
  "note": "Both number models; the object with no previous rows calculates them first."
 },
 "C81": {
  "note": "Columns and panics for both number models, least squares in exact arithmetic."
 },
 "C82": {
  "note": "Formula and panic for both number models, range in exact arithmetic."
 },
 "C67": {
  "note": "Block choice (C67_block_candles, C67_early_blocks) for positive prices with lows up to 99999999, where the code starts its search for a lowest low."
 },
 "C83": {
  "note": "For positive prices with lows up to 99999999. The other mark of each pair keeps the value of an earlier trend and is not described."
 },
 "C84": {
  "note": "Closed form for exact arithmetic (C84_exact). C84_not_a_percentage gives float64 values below 0 and above 100: the slope is multiplied by the absolute bar number."
 },
 "C85": {
  "note": "Running error analysis over Flocq's rounding (FloatError.v). C85_spike_never_forgotten shows that the bound of the moving sum cannot be replaced by one that forgets."
 },
 "C86": {
  "note": "b_round_val (RoundDigit.v) proves the model's math.Round exact on every finite float64."
 },
 "C87": {
  "note": "A relation between runs (Sim.v) that every operation and loop respects; SimTa, SimInd, SimAll and SimRest carry it through all indicators, Units.v instantiates it with scaling. The refuted ones are real unit dependences of the code."
 },
 "C88": {
  "note": "The same relational lemmas with equality on the listed fields; C88_fields_needed shows by computation in float64 that no field listed is superfluous."
 },
 "C89": {
  "note": "Complements C46 (direction, start markers, ratchet) by the prices of the lines."
 },
 "C90": {
  "note": "crash_map is the specification: one line per indicator type in catalogue order (C90_complete); default_map gives the NewDefault parameters. Memory exhaustion and SmartMoneyConcepts (C66) are outside."
 },
 "C91": {
  "note": "Cum, Mean, SD, Nz and RoundDigits index nothing and cannot panic by their model; GenerateNumbers is left out (its slice length is computed in floating point). Generalises C04_panics_iff, C13_Wma_panics_iff and C14_Variance_panics_iff to every value and arithmetic."
 },
 "C92": {
  "note": "finite_map is the specification: one line per indicator type in catalogue order (C92_complete), with the numbers of a row, the parameters asked for and the exact exception. Exact arithmetic: overflow in float64 is not covered. The exceptions are reachable from ordinary flat markets (C92_hyp)."
 },
 "C93": {
  "note": "The expected behaviour fails: C93_new_candles_buy and C93_removed_candles_crash say what AnalysisSide does on changed candles, C93_copies and C93_reads what the reads do, C93_recalculated, C93_appended and C93_Obv_refuted what a new Calculation does. SpecLive.v lists the copying types."
 },
 "C94": {
  "note": "GenerateNumbers and the sums in exact arithmetic (step not 0); ComputeCCI in any arithmetic; the time helpers over integers of nanoseconds, with Go's saturating Sub."
 },
 "C95": {
  "note": "remembers (SpecMemory.v) compares the rows of h1 ++ w and h2 ++ w. Windowed indicators in exact arithmetic; in float64 moving sums keep rounding errors of forgotten candles (C85_spike_never_forgotten), which C95_float_Sma and C95_float_Ema bound."
 },
 "C96": {
  "note": "rises_with (SpecMono.v). Extremes and recursive averages in both models; windowed sums in exact arithmetic. Refuted for Dema (exact) and for Sma in float64 (running sum)."
 },
 "C97": {
  "note": "follows_level, ignores_level and same_signals (SpecShift.v) compare the chart with the chart moved by a constant. Exact arithmetic. Refuted for the first bar of ForceIndex, EaseOfMovement and the true range; the average true range never reads that first value."
 },
 "C98": {
  "note": "Exact arithmetic. C98_Atr_refuted and C98_Keltner_bands_refuted: a gap down is left out of the true range, the same gap up is counted. C98_Boll_signals_refuted and C98_Rsi_signals_refuted: their rules have no mirror image. C98_Ichimoku_conversion_refuted: the number of highs is fixed to nine, the number of lows is not. Kdj and StochasticOscillator need some movement in each window (moves_by): on a flat window the code falls back to a fixed value. Not covered: SuperTrend, PivotPointSuperTrend, UTBot, ProjectionOscillator, StochasticHeat."
 },
 "C99": {
  "note": "Exact arithmetic for what holds. C99_Reversal_refuted, C99_Kdj_refuted, C99_Williams_refuted, C99_Force_refuted, C99_Vortex_refuted and C99_ADX_refuted: true of every flat market the statement quantifies over. C99_MFI_volume_refuted: at every standing price MoneyFlowIndex buys when the volume falls twice; with steady volume it rests (C99_MFI). C99_TraderXO_float_refuted: a flat float64 market on which TraderXO buys. SuperTrend is covered with its default true-range average (the flag that selects Natr is off), StochasticHeat with simple and exponential averages, LinearRegressionCandles without its signal line. Not covered: SmartMoneyConcepts, BreakoutProbability."
 },
 "C100": {
  "note": "C100_refuted: SuperTrend, UTBot and EMAVegas objects with one name and different signals (float64). C100_other_names says exactly what the names of the six remaining types leave open. %f is an arbitrary function of the factor."
 },
 "C101": {
  "note": "The texts of floats (%.2f) and times are arbitrary functions; GetTestKlineItem's data is replaced by any list."
 },
 "C102": {
  "note": ""
 },
 "C103": {
  "note": "Steps include the library's calls and the user's own assignments, appends and reslicings. Slices start at index 0 of their array; addPadding (unexported) is not among the steps."
 },
 "C104": {
  "note": "Two items on one array, the second at least as long as the edited one."
 },
 "C105": {
  "note": "Counterexamples for the appending types use a spare capacity that Go's append may leave; appending by the caller is proved harmless for the types that allocate."
 },
 "C106": {
  "note": "Float64 against exact arithmetic on the same numbers. C106_distance_needed is the witness that the distance is needed."
 },
 "C107": {
  "note": "Interleavings of single accesses to data fields, arrays and rows (Go promises no more to racy programs, and exactly this to race-free ones). The library has no locks: the refuted theorems give the schedules that corrupt a new object shared by two goroutines."
 },
 "C108": {
  "note": "Candles left over at the end are outside (see C32_leftovers_refuted). Highs and lows are equal as numbers. C108_volumes_round is a float64 case in which the volumes of the two ways differ."
 },
 "C109": {
  "note": "Uses the specifications of C28 to C30. C109_sort_first_differs is the witness that duplicates have to be removed before sorting."
 },
 "C110": {
  "note": "time.Duration.String of Go's standard library is modelled from its published source (Durations.v), since the package returns its result unchanged."
 },
 "C111": {
  "note": "C111_units_partial asks that no low exceeds 99999999 before and after the change of unit; C111_units_refuted shows the condition cannot be dropped."
 },
 "C112": {
  "note": "drawn_by (PropSmc6.v) says which candle may draw which level. C112_repaint and C112_rows_change: what changes and that it does; C112_kept: shown BOS and CHoCH levels do not vanish while no close is negative. Any arithmetic for C112_repaint, both models for C112_kept; the charts are those on which both runs return (C66 says when)."
 },
 "C113": {
  "note": "Two runs of the model side by side (alike, PropSmc7.v): one induction over the bars, once without and once with the equal highs and lows. Rows, order blocks and strong/weak points of both runs are compared when both return (C66 says when)."
 }
}