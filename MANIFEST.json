{
 "claims": [
  {
   "property": "C01",
   "status": "proved",
   "theorems": [
    "C01_bst_is_multiset_float64",
    "C01_bst_is_multiset_int64"
   ],
   "note": ""
  },
  {
   "property": "C02",
   "status": "partial",
   "theorems": [
    "C02_nan_breaks_bst_refuted",
    "C02_bst_total_with_nan_partial"
   ],
   "note": "Refuted: C02_nan_breaks_bst_refuted gives the histories; C02_bst_total_with_nan_partial is what still holds with NaN (no panic, sizes)."
  },
  {
   "property": "C03",
   "status": "proved",
   "theorems": [
    "C03_queue_fifo",
    "C03_queue_panics_iff_underflow",
    "C03_queue_empty"
   ],
   "note": ""
  },
  {
   "property": "C04",
   "status": "proved",
   "theorems": [
    "C04_Max_is_window_maximum",
    "C04_Min_is_window_minimum",
    "C04_panics_iff"
   ],
   "note": ""
  },
  {
   "property": "C05",
   "status": "proved",
   "theorems": [
    "C05_Highest_Lowest",
    "C05_empty_panics"
   ],
   "note": ""
  },
  {
   "property": "C06",
   "status": "proved",
   "theorems": [
    "C06_PivotHigh",
    "C06_PivotLow"
   ],
   "note": ""
  },
  {
   "property": "C07",
   "status": "partial",
   "theorems": [
    "C07_pivot_extreme_refuted",
    "C07_PivotMin_partial",
    "C07_PivotMax_partial"
   ],
   "note": "Refuted as stated: ties between both sides return the centre value, PivotMax ignores negative values. Proved: result is the value at the returned in-range position and is the extreme outside those two cases."
  },
  {
   "property": "C08",
   "status": "proved",
   "theorems": [
    "C08_Sma_is_window_mean",
    "C08_Sma_no_nan_no_ninf",
    "C08_Sma_shape"
   ],
   "note": ""
  },
  {
   "property": "C09",
   "status": "proved",
   "theorems": [
    "C09_Sum_is_window_sum",
    "C09_Sum_shape"
   ],
   "note": ""
  },
  {
   "property": "C10",
   "status": "proved",
   "theorems": [
    "C10_Ema_recurrence",
    "C10_Ema_weights",
    "C10_Ema_within_range_seen",
    "C10_Ema_constant_and_linear",
    "C10_Ema_never_panics"
   ],
   "note": ""
  },
  {
   "property": "C11",
   "status": "proved",
   "theorems": [
    "C11_Dema",
    "C11_Dema_constant"
   ],
   "note": ""
  },
  {
   "property": "C12",
   "status": "partial",
   "theorems": [
    "C12_Rma_documentation_refuted",
    "C12_Rma_recurrence_partial",
    "C12_Rma_warmup_partial"
   ],
   "note": "Refuted: the first value never enters the running sum (entry 0 is 0). Proved: the recurrence for i >= p on any float arithmetic, and the exact warm-up values."
  },
  {
   "property": "C13",
   "status": "proved",
   "theorems": [
    "C13_Wma_is_weighted_mean",
    "C13_Wma_panics_iff",
    "C13_Wma_short_panics_any_float"
   ],
   "note": ""
  },
  {
   "property": "C14",
   "status": "proved",
   "theorems": [
    "C14_Variance",
    "C14_Variance_nonnegative",
    "C14_Variance_panics_iff",
    "C14_StdDev",
    "C14_SD"
   ],
   "note": ""
  },
  {
   "property": "C15",
   "status": "proved",
   "theorems": [
    "C15_LinearReg_is_least_squares",
    "C15_LinearReg_panics"
   ],
   "note": ""
  },
  {
   "property": "C16",
   "status": "proved",
   "theorems": [
    "C16_LeastSquare",
    "C16_MovingLeastSquare",
    "C16_regression_values",
    "C16_panics"
   ],
   "note": ""
  },
  {
   "property": "C17",
   "status": "proved",
   "theorems": [
    "C17_TRange_float",
    "C17_TRange_exact",
    "C17_true_range_meaning"
   ],
   "note": ""
  },
  {
   "property": "C18",
   "status": "partial",
   "theorems": [
    "C18_Atr_short_panics_refuted",
    "C18_Atr_nonnegative_partial",
    "C18_Atr_wilder"
   ],
   "note": "Refuted: Atr panics whenever 2 <= period and len <= period. Proved: otherwise one entry per candle, >= 0 and Wilder's smoothing (exact arithmetic)."
  },
  {
   "property": "C19",
   "status": "proved",
   "theorems": [
    "C19_MA_Dev_exact",
    "C19_MA_Dev_shape",
    "C19_CCI_exact",
    "C19_CCI_formula",
    "C19_CCI_nonpositive_period_panics",
    "C19_AiCoinCCI_exact",
    "C19_AiCoinCCI_ignores_factor"
   ],
   "note": ""
  },
  {
   "property": "C20",
   "status": "proved",
   "theorems": [
    "C20_one_slice",
    "C20_two_slices",
    "C20_Subtract_exact"
   ],
   "note": ""
  },
  {
   "property": "C21",
   "status": "proved",
   "theorems": [
    "C21_Divide_finite"
   ],
   "note": ""
  },
  {
   "property": "C22",
   "status": "proved",
   "theorems": [
    "C22_Shift",
    "C22_Diff_exact",
    "C22_PercentDiff"
   ],
   "note": ""
  },
  {
   "property": "C23",
   "status": "proved",
   "theorems": [
    "C23_Cross",
    "C23_never_both",
    "C23_short"
   ],
   "note": ""
  },
  {
   "property": "C24",
   "status": "proved",
   "theorems": [
    "C24_one_series",
    "C24_several_series"
   ],
   "note": ""
  },
  {
   "property": "C25",
   "status": "proved",
   "theorems": [
    "C25_Stochastic"
   ],
   "note": ""
  },
  {
   "property": "C26",
   "status": "partial",
   "theorems": [
    "C26_refuted",
    "C26_EMAVegas_refuted",
    "C26_Ichimoku_refuted",
    "C26_TraderXO_partial"
   ],
   "note": "Refuted for every input of 23 of the 25 strategies: skipped bars report the zero Side, which is Buy. TraderXO reports Hold; Camarilla skips no bar."
  },
  {
   "property": "C27",
   "status": "proved",
   "theorems": [
    "C27_RunStrategies",
    "C27_one_result_each"
   ],
   "note": ""
  },
  {
   "property": "C28",
   "status": "proved",
   "theorems": [
    "C28_RemoveDuplicates",
    "C28_distinct_times",
    "C28_idempotent"
   ],
   "note": ""
  },
  {
   "property": "C29",
   "status": "proved",
   "theorems": [
    "C29_RemoveOutsideRange",
    "C29_Copy"
   ],
   "note": ""
  },
  {
   "property": "C30",
   "status": "partial",
   "theorems": [
    "C30_partial",
    "C30_direction_refuted",
    "C30_exists"
   ],
   "note": "Refuted (C30_direction_refuted): the direction is inverted. C30_partial: permutation, and sorted in the opposite direction."
  },
  {
   "property": "C31",
   "status": "partial",
   "theorems": [
    "C31_padding",
    "C31_misaligned",
    "C31_errors",
    "C31_short_window_refuted"
   ],
   "note": "Proved for intervals of at least one second and time-ordered candles, except that purgeOnPartial on a window shorter than one interval panics (C31_short_window_refuted)."
  },
  {
   "property": "C32",
   "status": "partial",
   "theorems": [
    "C32_aggregates",
    "C32_leftovers_partial",
    "C32_leftovers_refuted",
    "C32_panics_refuted",
    "C32_returns",
    "C32_errors"
   ],
   "note": "Proved when k divides n (C32_aggregates, float64), with the documented errors (C32_errors) and totality on non-empty items (C32_returns). Refuted: leftover candles leak into the last high/low; an empty item or one starting at the epoch panics."
  },
  {
   "property": "C33",
   "status": "proved",
   "theorems": [
    "C33_partition",
    "C33_rounded_window",
    "C33_errors"
   ],
   "note": ""
  },
  {
   "property": "C34",
   "status": "proved",
   "theorems": [
    "C34_GetOHLC",
    "C34_typical_prices",
    "C34_between"
   ],
   "note": ""
  },
  {
   "property": "C35",
   "status": "partial",
   "theorems": [
    "C35_low_refuted",
    "C35_high_partial"
   ],
   "note": "Refuted: the low uses math.Max and can exceed the close. C35_high_partial: open, close and low never exceed the high (exact arithmetic)."
  },
  {
   "property": "C36",
   "status": "proved",
   "theorems": [
    "C36_HasDataAtDate"
   ],
   "note": ""
  },
  {
   "property": "C37",
   "status": "proved",
   "theorems": [
    "C37_pipelines",
    "C37_moving_average"
   ],
   "note": "All pipelines built from Slice2Chan/any closed channel, Apply, Operate, Shift, Skip, Pipe, SmaT and Chan2Slice, of any shape and any capacities; values of one type per pipeline. Excluded: a Shift or SmaT whose make(chan, cap+count) gets a negative size (panics before any goroutine runs)."
  },
  {
   "property": "C38",
   "status": "partial",
   "theorems": [
    "C38_one_pair_partial",
    "C38_refuted",
    "C38_no_channels_refuted"
   ],
   "note": "Refuted with two pairs (the first pair ends and hides a difference in the second) and with no channels (never returns); holds for one pair. What CheckEquals does decide is C72."
  },
  {
   "property": "C39",
   "status": "partial",
   "theorems": [
    "C39_rows_partial",
    "C39_sides",
    "C39_float64",
    "C39_Rma_refuted"
   ],
   "note": "Proved for rows and sides of all 45 types but Rma (any float arithmetic; ProjectionOscillator up to 2^53 candles). Refuted for Rma, which reports 2n rows."
  },
  {
   "property": "C40",
   "status": "partial",
   "theorems": [
    "C40_rows_partial",
    "C40_sides",
    "C40_times",
    "C40_first_time_zero",
    "C40_Rma_refuted"
   ],
   "note": "Proved for rows, sides and row times of all 45 types but Rma, which reports 2n rows; row 0 of PivotPointSuperTrend, UTBot and BreakoutProbability carries the zero time."
  },
  {
   "property": "C41",
   "status": "partial",
   "theorems": [
    "C41_reads",
    "C41_Calculation_partial",
    "C41_appends",
    "C41_refuted"
   ],
   "note": "Proved: reads are pure for all types; Calculation is idempotent for the 19 types that replace their data. Refuted for the 26 types that append."
  },
  {
   "property": "C42",
   "status": "partial",
   "theorems": [
    "C42_range",
    "C42_any_data",
    "C42_panics_iff",
    "C42_no_panic_refuted",
    "C42_never_falls",
    "C42_never_rises",
    "C42_rising_is_100",
    "C42_rising_window_refuted"
   ],
   "note": "Proved in float64 and exact arithmetic: every value is a number in [0,100]; 0 on a history that never rises, 0 or 100 on one that never falls, 100 once every step is at least 1e-14 (exact). Refuted: it panics when the period equals the number of candles (C42_panics_iff), and only the whole history, not the window, decides the 100."
  },
  {
   "property": "C43",
   "status": "proved",
   "theorems": [
    "C43_Macd",
    "C43_float64"
   ],
   "note": ""
  },
  {
   "property": "C44",
   "status": "partial",
   "theorems": [
    "C44_panics_iff",
    "C44_no_panic_refuted",
    "C44_bounds",
    "C44_formulas",
    "C44_J_exact"
   ],
   "note": "Proved: bounds and formulas in both models, J exact. Refuted: period 1 panics on any candle (C44_panics_iff says exactly when)."
  },
  {
   "property": "C45",
   "status": "partial",
   "theorems": [
    "C45_TR",
    "C45_true_range_iff",
    "C45_refuted"
   ],
   "note": "Refuted: the absolute values are missing, so after a gap down the reported TR is too small. Proved: the formula it does compute, and that it is the true range exactly when the previous close is not above the high."
  },
  {
   "property": "C46",
   "status": "partial",
   "theorems": [
    "C46_SuperTrend_partial",
    "C46_alternate",
    "C46_ratchet_refuted",
    "C46_PivotPointSuperTrend_partial"
   ],
   "note": "Refuted: the stop can move against the trend when the previous close was not beyond it (C46_ratchet_refuted). Proved: direction, flips, markers, alternation and the ratchet otherwise."
  },
  {
   "property": "C47",
   "status": "proved",
   "theorems": [
    "C47_UTBot",
    "C47_rule"
   ],
   "note": ""
  },
  {
   "property": "C48",
   "status": "proved",
   "theorems": [
    "C48_TraderXO"
   ],
   "note": ""
  },
  {
   "property": "C49",
   "status": "partial",
   "theorems": [
    "C49_Reversal_partial",
    "C49_exclusive",
    "C49_refuted"
   ],
   "note": "Refuted as worded: equal closes count towards Sell (C49_refuted). C49_Reversal_partial: the exact rule with its extra condition on lows and highs; C49_exclusive."
  },
  {
   "property": "C50",
   "status": "proved",
   "theorems": [
    "C50_BreakoutProbability",
    "C50_float64",
    "C50_exact",
    "C50_meaning",
    "C50_wins"
   ],
   "note": "Line count, percentages in [0,100] (float64 and exact), wins + losses, and the meaning of every line; for every series and parameter."
  },
  {
   "property": "C51",
   "status": "partial",
   "theorems": [
    "C51_histories",
    "C51_Add",
    "C51_Remove",
    "C51_Remove_absent_refuted",
    "C51_Remove_absent_empties"
   ],
   "note": "Refuted in one point: Remove of a block that is not in the list returns an empty list. Proved: no duplicates after any history of operations, Add puts new blocks first and ignores known ones, Remove of a listed block deletes exactly it."
  },
  {
   "property": "C52",
   "status": "partial",
   "theorems": [
    "C52_exact",
    "C52_ordered_exact",
    "C52_never_crossed",
    "C52_multiplier_refuted",
    "C52_float_nan_refuted",
    "C52_never_sell_refuted"
   ],
   "note": "Refuted: the multiplier is ignored (bands are one deviation wide), no bar is ever Sell, Buy fires above the upper band, and in float64 equal closes can give NaN bands. Proved: middle = window mean, MD = window standard deviation, bands symmetric and ordered (exact); never crossed in either model."
  },
  {
   "property": "C53",
   "status": "proved",
   "theorems": [
    "C53_Donchian",
    "C53_Donchian_middle_exact",
    "C53_Keltner",
    "C53_Keltner_symmetric"
   ],
   "note": ""
  },
  {
   "property": "C54",
   "status": "proved",
   "theorems": [
    "C54_range",
    "C54_never_negative",
    "C54_zero_at_top"
   ],
   "note": ""
  },
  {
   "property": "C55",
   "status": "partial",
   "theorems": [
    "C55_exact",
    "C55_no_losses_refuted"
   ],
   "note": "Proved in exact arithmetic: the formula and [0,100]. Refuted: with no negative flow it is 0, not 100. Float64: math.Pow is an abstract function of the model, no float64 bound is claimed."
  },
  {
   "property": "C56",
   "status": "partial",
   "theorems": [
    "C56_exact",
    "C56_float_refuted"
   ],
   "note": "Proved in exact arithmetic with the defining formula. Refuted in float64: rounding gives -1.0000000000000002 on well-formed candles."
  },
  {
   "property": "C57",
   "status": "proved",
   "theorems": [
    "C57_OBV",
    "C57_cases"
   ],
   "note": ""
  },
  {
   "property": "C58",
   "status": "partial",
   "theorems": [
    "C58_exact",
    "C58_float_refuted"
   ],
   "note": "Proved in exact arithmetic with the defining formula. Refuted in float64: the running sums keep rounding errors of bars that left the window."
  },
  {
   "property": "C59",
   "status": "partial",
   "theorems": [
    "C59_NVI_partial",
    "C59_refuted"
   ],
   "note": "Refuted: the index also moves on bars with equal volume (C59_refuted). C59_NVI_partial: the rule the code follows, for every float arithmetic."
  },
  {
   "property": "C60",
   "status": "partial",
   "theorems": [
    "C60_Williams",
    "C60_Williams_formula",
    "C60_Williams_flat_refuted",
    "C60_Stochastic_K",
    "C60_Stochastic_D_exact",
    "C60_Stochastic_D_refuted"
   ],
   "note": "Refuted twice: Williams %R is NaN on a flat window, and float64 rounding lets stochastic D fall below 0. Proved: %R in [-100,0] on every other window and K in [0,100], in both models; D in [0,100] exactly."
  },
  {
   "property": "C61",
   "status": "partial",
   "theorems": [
    "C61_lines_partial",
    "C61_refuted"
   ],
   "note": "Refuted: the conversion line takes its high over 9 bars whatever period is configured (C61_refuted). C61_lines_partial: every line, with that window."
  },
  {
   "property": "C62",
   "status": "proved",
   "theorems": [
    "C62_formula",
    "C62_ordered",
    "C62_mirror"
   ],
   "note": ""
  },
  {
   "property": "C63",
   "status": "proved",
   "theorems": [
    "C63_APO",
    "C63_AO",
    "C63_PPO",
    "C63_VolumeOscillator",
    "C63_AccumulationDistribution",
    "C63_Chaikin"
   ],
   "note": ""
  },
  {
   "property": "C64",
   "status": "proved",
   "theorems": [
    "C64_Rsi",
    "C64_StochRsi",
    "C64_Stoch",
    "C64_Macd",
    "C64_Kdj",
    "C64_Cci",
    "C64_AiCoinCCI",
    "C64_StochasticHeat",
    "C64_MFI",
    "C64_APO",
    "C64_AO",
    "C64_Chaikin",
    "C64_PPO",
    "C64_Projection",
    "C64_WilliamsR",
    "C64_Boll",
    "C64_Donchian",
    "C64_Keltner",
    "C64_Ichimoku",
    "C64_SuperTrend",
    "C64_PivotPointSuperTrend",
    "C64_UTBot",
    "C64_EMAVegas",
    "C64_Camarilla",
    "C64_TraderXO"
   ],
   "note": "All strategies; the TraderXO rule needs the order laws of float64."
  },
  {
   "property": "C65",
   "status": "partial",
   "theorems": [
    "C65_refuted"
   ],
   "note": "Refuted: the code counts bars whose low stayed above the level (C65_refuted). C50_meaning states exactly what is counted."
  },
  {
   "property": "C66",
   "status": "proved",
   "theorems": [
    "C66_total",
    "C66_short_panics",
    "C66_negative_swing_panics"
   ],
   "note": ""
  },
  {
   "property": "C67",
   "status": "proved",
   "theorems": [
    "C67_order_blocks",
    "C67_bound_is_reached",
    "C67_block_candles",
    "C67_block_history",
    "C67_early_blocks"
   ],
   "note": "Block choice (C67_block_candles, C67_early_blocks) for positive prices with lows up to 99999999, where the code starts its search for a lowest low."
  },
  {
   "property": "C68",
   "status": "proved",
   "theorems": [
    "C68_rows",
    "C68_levels",
    "C68_equal_levels"
   ],
   "note": ""
  },
  {
   "property": "C69",
   "status": "partial",
   "theorems": [
    "C69_recalculation_refuted",
    "C69_GetData_cached",
    "C69_rows_need_swing_only",
    "C69_recalculation_partial",
    "C69_blocks_forgotten"
   ],
   "note": "Refuted: Clear keeps the swing directions, so a second Calculation can draw other levels. Proved: the rows depend on nothing else of an earlier run, so they are the same again when that run ended with both directions as in a new object (C69_recalculation_partial); the old rows and order blocks have no influence at all; GetData after Calculation returns the calculated rows."
  },
  {
   "property": "C70",
   "status": "partial",
   "theorems": [
    "C70_long_low_refuted",
    "C70_kinds_partial",
    "C70_long_low"
   ],
   "note": "Refuted for long swing lows: the code tests the short trend (C70_long_low says exactly what it draws). Proved for the other six kinds, completely: what each row shows."
  },
  {
   "property": "C71",
   "status": "proved",
   "theorems": [
    "C71_duplicate",
    "C71_sequential_readers_deadlock"
   ],
   "note": ""
  },
  {
   "property": "C72",
   "status": "proved",
   "theorems": [
    "C72_verdict",
    "C72_equal_lengths",
    "C72_odd"
   ],
   "note": ""
  },
  {
   "property": "C73",
   "status": "proved",
   "theorems": [
    "C73_Ma_is_Sma",
    "C73_Ma_mean",
    "C73_Ema",
    "C73_Dema",
    "C73_TraderXO",
    "C73_EMAVegas",
    "C73_Rma"
   ],
   "note": "Ma/Sma, Ema, Dema, TraderXO, EMA Vegas and Rma objects for all parameters; Dema needs the arithmetic laws float64 has."
  },
  {
   "property": "C74",
   "status": "proved",
   "theorems": [
    "C74_Rsi",
    "C74_degenerate"
   ],
   "note": ""
  },
  {
   "property": "C75",
   "status": "proved",
   "theorems": [
    "C75_ForceIndex",
    "C75_EaseOfMovement",
    "C75_VolumePriceTrend",
    "C75_VolumePriceTrend_empty"
   ],
   "note": ""
  },
  {
   "property": "C76",
   "status": "proved",
   "theorems": [
    "C76_formula",
    "C76_range",
    "C76_panics_iff"
   ],
   "note": "Both number models; prices bounded as in SpecNum, periods up to 2^46."
  },
  {
   "property": "C77",
   "status": "partial",
   "theorems": [
    "C77_exact",
    "C77_nonnegative",
    "C77_float_refuted",
    "C77_panics_iff"
   ],
   "note": "Proved in exact arithmetic. Refuted in float64: the running sums keep rounding errors, VI+ can become negative."
  },
  {
   "property": "C78",
   "status": "partial",
   "theorems": [
    "C78_formula",
    "C78_range",
    "C78_adx",
    "C78_average_refuted",
    "C78_panics"
   ],
   "note": "Formulas proved for both number models, ranges in exact arithmetic. Refuted: while the market has not moved the directional index is 0/0 = NaN and the running SMA then answers 0 for good (C78_adx says exactly when the ADX is the mean)."
  },
  {
   "property": "C79",
   "status": "proved",
   "theorems": [
    "C79_objects",
    "C79_exact",
    "C79_panics"
   ],
   "note": "Objects and panics for both number models, closed form in exact arithmetic with equal periods."
  },
  {
   "property": "C80",
   "status": "proved",
   "theorems": [
    "C80_chandelier"
   ],
   "note": "Both number models; the object with no previous rows calculates them first."
  },
  {
   "property": "C81",
   "status": "proved",
   "theorems": [
    "C81_candles",
    "C81_exact",
    "C81_panics_iff"
   ],
   "note": "Columns and panics for both number models, least squares in exact arithmetic."
  },
  {
   "property": "C82",
   "status": "proved",
   "theorems": [
    "C82_formula",
    "C82_range",
    "C82_wma_panics"
   ],
   "note": "Formula and panic for both number models, range in exact arithmetic."
  },
  {
   "property": "C83",
   "status": "proved",
   "theorems": [
    "C83_strong_weak"
   ],
   "note": "For positive prices with lows up to 99999999. The other mark of each pair keeps the value of an earlier trend and is not described."
  },
  {
   "property": "C84",
   "status": "proved",
   "theorems": [
    "C84_exact",
    "C84_not_a_percentage"
   ],
   "note": "Closed form for exact arithmetic (C84_exact). C84_not_a_percentage gives float64 values below 0 and above 100: the slope is multiplied by the absolute bar number."
  },
  {
   "property": "C85",
   "status": "proved",
   "theorems": [
    "C85_Sum_error",
    "C85_Sma_error",
    "C85_Ema_error",
    "C85_spike_never_forgotten"
   ],
   "note": "Running error analysis over Flocq's rounding (FloatError.v). C85_spike_never_forgotten shows that the bound of the moving sum cannot be replaced by one that forgets."
  },
  {
   "property": "C86",
   "status": "proved",
   "theorems": [
    "C86_exact",
    "C86_exact_laws",
    "C86_float",
    "C86_not_always_nearest",
    "C86_overflow",
    "C86_int",
    "C86_int_changed",
    "C86_ta_version",
    "C86_versions_agree",
    "C86_channel"
   ],
   "note": "b_round_val (RoundDigit.v) proves the model's math.Round exact on every finite float64."
  },
  {
   "property": "C87",
   "status": "partial",
   "theorems": [
    "C87_values",
    "C87_supertrend",
    "C87_signals",
    "C87_signals_camarilla",
    "C87_complete",
    "C87_rsi_refuted",
    "C87_stochrsi_refuted",
    "C87_kdj_refuted",
    "C87_supertrend_refuted"
   ],
   "note": "A relation between runs (Sim.v) that every operation and loop respects; SimTa, SimInd, SimAll and SimRest carry it through all indicators, Units.v instantiates it with scaling. The refuted ones are real unit dependences of the code."
  },
  {
   "property": "C88",
   "status": "proved",
   "theorems": [
    "C88_values",
    "C88_values_complete",
    "C88_signals",
    "C88_signals_camarilla",
    "C88_signals_complete",
    "C88_fields_needed",
    "C88_SmartMoneyConcepts"
   ],
   "note": "The same relational lemmas with equality on the listed fields; C88_fields_needed shows by computation in float64 that no field listed is superfluous."
  },
  {
   "property": "C89",
   "status": "proved",
   "theorems": [
    "C89_SuperTrend",
    "C89_PivotPointSuperTrend",
    "C89_centre_between"
   ],
   "note": "Complements C46 (direction, start markers, ratchet) by the prices of the lines."
  },
  {
   "property": "C90",
   "status": "proved",
   "theorems": [
    "C90_complete",
    "C90_rows",
    "C90_float64",
    "C90_sides",
    "C90_defaults"
   ],
   "note": "crash_map is the specification: one line per indicator type in catalogue order (C90_complete); default_map gives the NewDefault parameters. Memory exhaustion and SmartMoneyConcepts (C66) are outside."
  },
  {
   "property": "C91",
   "status": "proved",
   "theorems": [
    "C91_never",
    "C91_windows",
    "C91_slices",
    "C91_places",
    "C91_PivotMax"
   ],
   "note": "Cum, Mean, SD, Nz and RoundDigits index nothing and cannot panic by their model; GenerateNumbers is left out (its slice length is computed in floating point). Generalises C04_panics_iff, C13_Wma_panics_iff and C14_Variance_panics_iff to every value and arithmetic."
  },
  {
   "property": "C92",
   "status": "proved",
   "theorems": [
    "C92_complete",
    "C92_finite"
   ],
   "note": "finite_map is the specification: one line per indicator type in catalogue order (C92_complete), with the numbers of a row, the parameters asked for and the exact exception. Exact arithmetic: overflow in float64 is not covered. The exceptions are reachable from ordinary flat markets (C92_hyp)."
  },
  {
   "property": "C93",
   "status": "partial",
   "theorems": [
    "C93_copies",
    "C93_reads",
    "C93_recalculated",
    "C93_appended",
    "C93_Obv_refuted",
    "C93_new_candles_buy",
    "C93_removed_candles_crash",
    "C93_removed_candles_crash_Ichimoku"
   ],
   "note": "The expected behaviour fails: C93_new_candles_buy and C93_removed_candles_crash say what AnalysisSide does on changed candles, C93_copies and C93_reads what the reads do, C93_recalculated, C93_appended and C93_Obv_refuted what a new Calculation does. SpecLive.v lists the copying types."
  },
  {
   "property": "C94",
   "status": "proved",
   "theorems": [
    "C94_GenerateNumbers",
    "C94_Cum_Mean",
    "C94_ComputeCCI",
    "C94_ComputeCCI_in_AiCoinCCI",
    "C94_TotalCandlesPerInterval",
    "C94_IntervalTime_Equal",
    "C94_StartEndTimeCheck",
    "C94_Clear"
   ],
   "note": "GenerateNumbers and the sums in exact arithmetic (step not 0); ComputeCCI in any arithmetic; the time helpers over integers of nanoseconds, with Go's saturating Sub."
  },
  {
   "property": "C95",
   "status": "proved",
   "theorems": [
    "C95_Ma",
    "C95_Vwma",
    "C95_CMF",
    "C95_Donchian",
    "C95_Williams",
    "C95_Stochastic",
    "C95_EMV",
    "C95_MFI",
    "C95_Vortex",
    "C95_Boll",
    "C95_Cci",
    "C95_LinearRegCandles",
    "C95_Camarilla",
    "C95_Ichimoku",
    "C95_Sma_needs_every_candle",
    "C95_Ema_never_forgets",
    "C95_Ema_fades",
    "C95_float_Sma",
    "C95_float_Ema"
   ],
   "note": "remembers (SpecMemory.v) compares the rows of h1 ++ w and h2 ++ w. Windowed indicators in exact arithmetic; in float64 moving sums keep rounding errors of forgotten candles (C85_spike_never_forgotten), which C95_float_Sma and C95_float_Ema bound."
  },
  {
   "property": "C96",
   "status": "partial",
   "theorems": [
    "C96_Max_Min",
    "C96_Highest_Lowest",
    "C96_Ema",
    "C96_Rma",
    "C96_Sum_Sma",
    "C96_Wma",
    "C96_Sma_float_refuted",
    "C96_Dema_refuted"
   ],
   "note": "rises_with (SpecMono.v). Extremes and recursive averages in both models; windowed sums in exact arithmetic. Refuted for Dema (exact) and for Sma in float64 (running sum)."
  },
  {
   "property": "C97",
   "status": "partial",
   "theorems": [
    "C97_Sma",
    "C97_Ema",
    "C97_TraderXO",
    "C97_EMAVegas",
    "C97_Atr",
    "C97_Keltner",
    "C97_Donchian",
    "C97_Boll",
    "C97_Macd",
    "C97_APO",
    "C97_AO",
    "C97_Obv",
    "C97_AD",
    "C97_Chaikin",
    "C97_CMF",
    "C97_Vwma",
    "C97_Rsi",
    "C97_Kdj",
    "C97_Williams",
    "C97_Stochastic",
    "C97_Vortex",
    "C97_ADX",
    "C97_Cci",
    "C97_LinearRegCandles",
    "C97_signals",
    "C97_Rsi_signals",
    "C97_channel_signals",
    "C97_cross_signals",
    "C97_first_bar_refuted"
   ],
   "note": "follows_level, ignores_level and same_signals (SpecShift.v) compare the chart with the chart moved by a constant. Exact arithmetic. Refuted for the first bar of ForceIndex, EaseOfMovement and the true range; the average true range never reads that first value."
  },
  {
   "property": "C98",
   "status": "partial",
   "theorems": [
    "C98_Sma",
    "C98_Ema",
    "C98_TraderXO",
    "C98_EMAVegas",
    "C98_Donchian",
    "C98_Boll",
    "C98_Macd",
    "C98_APO",
    "C98_AO",
    "C98_Obv",
    "C98_AD",
    "C98_Chaikin",
    "C98_CMF",
    "C98_Vwma",
    "C98_Rsi",
    "C98_Kdj",
    "C98_Williams",
    "C98_Stochastic",
    "C98_Vortex",
    "C98_ADX",
    "C98_Cci",
    "C98_LinearRegCandles",
    "C98_sign_signals",
    "C98_level_signals",
    "C98_Macd_signals",
    "C98_Keltner_middle",
    "C98_middle_signals",
    "C98_Kdj_signals",
    "C98_Stochastic_signals",
    "C98_TraderXO_signals",
    "C98_EMAVegas_signals",
    "C98_Atr_refuted",
    "C98_Keltner_bands_refuted",
    "C98_Boll_signals_refuted",
    "C98_Rsi_signals_refuted",
    "C98_Ichimoku_lines",
    "C98_Ichimoku",
    "C98_Ichimoku_signals",
    "C98_Ichimoku_conversion_refuted"
   ],
   "note": "Exact arithmetic. C98_Atr_refuted and C98_Keltner_bands_refuted: a gap down is left out of the true range, the same gap up is counted. C98_Boll_signals_refuted and C98_Rsi_signals_refuted: their rules have no mirror image. C98_Ichimoku_conversion_refuted: the number of highs is fixed to nine, the number of lows is not. Kdj and StochasticOscillator need some movement in each window (moves_by): on a flat window the code falls back to a fixed value. Not covered: SuperTrend, PivotPointSuperTrend, UTBot, ProjectionOscillator, StochasticHeat."
  },
  {
   "property": "C99",
   "status": "partial",
   "theorems": [
    "C99_Sma",
    "C99_Ema",
    "C99_TraderXO",
    "C99_EMAVegas",
    "C99_Donchian",
    "C99_Atr",
    "C99_Keltner",
    "C99_Boll",
    "C99_Macd",
    "C99_APO",
    "C99_AO",
    "C99_PPO",
    "C99_Obv",
    "C99_NVI",
    "C99_AD",
    "C99_Chaikin",
    "C99_CMF",
    "C99_EMV",
    "C99_VPT",
    "C99_Ulcer",
    "C99_Stoch",
    "C99_Rsi",
    "C99_StochRsi",
    "C99_Camarilla",
    "C99_Ichimoku",
    "C99_Rsi_signals",
    "C99_StochRsi_signals",
    "C99_Stoch_signals",
    "C99_Macd_signals",
    "C99_APO_signals",
    "C99_AO_signals",
    "C99_Chaikin_signals",
    "C99_PPO_signals",
    "C99_Boll_signals",
    "C99_Donchian_signals",
    "C99_Keltner_signals",
    "C99_Ichimoku_signals",
    "C99_Cci_signals",
    "C99_EMAVegas_signals",
    "C99_Camarilla_signals",
    "C99_TraderXO_signals",
    "C99_UTBot",
    "C99_UTBot_signals",
    "C99_SuperTrend",
    "C99_SuperTrend_signals",
    "C99_PivotPointSuperTrend_signals",
    "C99_Kdj_signals",
    "C99_Kdj_refuted",
    "C99_Williams_refuted",
    "C99_Williams_signals",
    "C99_Vwma",
    "C99_Reversal_refuted",
    "C99_Force_refuted",
    "C99_TraderXO_float_refuted",
    "C99_Vortex_refuted",
    "C99_ADX_refuted",
    "C99_ADX",
    "C99_LinearRegressionCandles",
    "C99_Projection",
    "C99_Projection_signals",
    "C99_VolumeOscillator",
    "C99_MFI",
    "C99_MFI_volume_refuted",
    "C99_StochasticHeat",
    "C99_StochasticHeat_signals",
    "C99_SmartMoneyConcepts"
   ],
   "note": "Exact arithmetic for what holds. C99_Reversal_refuted, C99_Kdj_refuted, C99_Williams_refuted, C99_Force_refuted, C99_Vortex_refuted and C99_ADX_refuted: true of every flat market the statement quantifies over. C99_MFI_volume_refuted: at every standing price MoneyFlowIndex buys when the volume falls twice; with steady volume it rests (C99_MFI). C99_TraderXO_float_refuted: a flat float64 market on which TraderXO buys. SuperTrend is covered with its default true-range average (the flag that selects Natr is off), StochasticHeat with simple and exponential averages, LinearRegressionCandles without its signal line. Not covered: SmartMoneyConcepts, BreakoutProbability."
  },
  {
   "property": "C100",
   "status": "partial",
   "theorems": [
    "C100_complete",
    "C100_results",
    "C100_type",
    "C100_parameters_partial",
    "C100_same_name_same_signals",
    "C100_other_names",
    "C100_refuted"
   ],
   "note": "C100_refuted: SuperTrend, UTBot and EMAVegas objects with one name and different signals (float64). C100_other_names says exactly what the names of the six remaining types leave open. %f is an arbitrary function of the factor."
  },
  {
   "property": "C101",
   "status": "proved",
   "theorems": [
    "C101_strategies",
    "C101_crash",
    "C101_lines",
    "C101_append_only"
   ],
   "note": "The texts of floats (%.2f) and times are arbitrary functions; GetTestKlineItem's data is replaced by any list."
  },
  {
   "property": "C102",
   "status": "proved",
   "theorems": [
    "C102_values",
    "C102_text"
   ],
   "note": ""
  },
  {
   "property": "C103",
   "status": "proved",
   "theorems": [
    "C103_apart",
    "C103_made",
    "C103_origin",
    "C103_HeikinAshi",
    "C103_Convert"
   ],
   "note": "Steps include the library's calls and the user's own assignments, appends and reslicings. Slices start at index 0 of their array; addPadding (unexported) is not among the steps."
  },
  {
   "property": "C104",
   "status": "proved",
   "theorems": [
    "C104_RemoveDuplicates",
    "C104_RemoveOutsideRange",
    "C104_no_time_lost",
    "C104_Sort",
    "C104_Clear",
    "C104_append"
   ],
   "note": "Two items on one array, the second at least as long as the edited one."
  },
  {
   "property": "C105",
   "status": "partial",
   "theorems": [
    "C105_given_rows_stay",
    "C105_calls_only",
    "C105_one_object",
    "C105_writes_show",
    "C105_appends_partial",
    "C105_append_lost_refuted",
    "C105_append_intrudes_refuted"
   ],
   "note": "Counterexamples for the appending types use a spare capacity that Go's append may leave; appending by the caller is proved harmless for the types that allocate."
  },
  {
   "property": "C106",
   "status": "proved",
   "theorems": [
    "C106_APO",
    "C106_AO",
    "C106_Macd",
    "C106_TraderXO",
    "C106_Keltner",
    "C106_Ema",
    "C106_EMAVegas",
    "C106_distance_needed",
    "C106_Donchian",
    "C106_Ichimoku"
   ],
   "note": "Float64 against exact arithmetic on the same numbers. C106_distance_needed is the witness that the distance is needed."
  },
  {
   "property": "C107",
   "status": "partial",
   "theorems": [
    "C107_independent",
    "C107_GetData_keeps",
    "C107_own_object",
    "C107_shared_once_filled",
    "C107_first_row_only_refuted",
    "C107_rows_twice_refuted",
    "C107_zero_rows_refuted"
   ],
   "note": "Interleavings of single accesses to data fields, arrays and rows (Go promises no more to racy programs, and exactly this to race-free ones). The library has no locks: the refuted theorems give the schedules that corrupt a new object shared by two goroutines."
  },
  {
   "property": "C108",
   "status": "proved",
   "theorems": [
    "C108_two_steps",
    "C108_two_steps_volumes",
    "C108_part",
    "C108_volumes_round"
   ],
   "note": "Candles left over at the end are outside (see C32_leftovers_refuted). Highs and lows are equal as numbers. C108_volumes_round is a float64 case in which the volumes of the two ways differ."
  },
  {
   "property": "C109",
   "status": "proved",
   "theorems": [
    "C109_either_order",
    "C109_ranges_intersect",
    "C109_range_again",
    "C109_sort_unique",
    "C109_sort_first_differs"
   ],
   "note": "Uses the specifications of C28 to C30. C109_sort_first_differs is the witness that duplicates have to be removed before sorting."
  },
  {
   "property": "C110",
   "status": "proved",
   "theorems": [
    "C110_read_back",
    "C110_distinct",
    "C110_hours",
    "C110_named"
   ],
   "note": "time.Duration.String of Go's standard library is modelled from its published source (Durations.v), since the package returns its result unchanged."
  },
  {
   "property": "C111",
   "status": "partial",
   "theorems": [
    "C111_units_partial",
    "C111_units_refuted"
   ],
   "note": "C111_units_partial asks that no low exceeds 99999999 before and after the change of unit; C111_units_refuted shows the condition cannot be dropped."
  },
  {
   "property": "C112",
   "status": "proved",
   "theorems": [
    "C112_repaint",
    "C112_kept",
    "C112_rows_change"
   ],
   "note": "drawn_by (PropSmc6.v) says which candle may draw which level. C112_repaint and C112_rows_change: what changes and that it does; C112_kept: shown BOS and CHoCH levels do not vanish while no close is negative. Any arithmetic for C112_repaint, both models for C112_kept; the charts are those on which both runs return (C66 says when)."
  },
  {
   "property": "C113",
   "status": "proved",
   "theorems": [
    "C113_levels",
    "C113_block_number",
    "C113_switched_off"
   ],
   "note": "Two runs of the model side by side (alike, PropSmc7.v): one induction over the bars, once without and once with the equal highs and lows. Rows, order blocks and strong/weak points of both runs are compared when both return (C66 says when)."
  }
 ]
}