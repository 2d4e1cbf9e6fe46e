#!/usr/bin/env python3
"""Source of /verif/properties.jsonl: run `python3 tools/props.py` in /verif to regenerate it."""
import json, os
P = []
def p(id, title, statement, quantifier, why, anchors):
    P.append(dict(id=id, title=title, statement=statement, quantifier=quantifier,
                  why_tests_cant=why, anchors=anchors))

# ---------------------------------------------------------------- containers
p("C01", "The search tree is a multiset",
  "After any sequence of Insert/Inserts/Remove calls on values that are mutually comparable (non-NaN float64 or int64), the tree holds exactly the multiset a plain bag would hold: Remove(v) returns true exactly when a value comparing equal to v is present and then takes exactly one such value out, leaving everything else; Min()/Max() return nil exactly on an empty tree and otherwise a held value that is <= / >= every held value.",
  "every finite sequence of operations from New(), every value (duplicates, +0/-0 and infinities included)",
  "The shape of the tree depends on the whole history (two-child removals turn the strict ordering into a weak one), so no finite set of histories covers the reachable shapes.",
  ["container/bst/bst.go:Insert,Inserts,Remove,Min,Max,removeNode,minNode,maxNode", "container/comparable.go:Compare"])
p("C02", "NaN does not corrupt the search tree",
  "Inserting or removing NaN never makes Remove report success for a value that was not inserted, and Min/Max keep bounding the ordinary values held.",
  "every operation history over float64, NaN included",
  "NaN compares as equal to everything, so its effect depends on where in which tree it lands.",
  ["container/bst/bst.go:Remove", "container/comparable.go:compareFloat64"])
p("C03", "The queue is first-in first-out",
  "For any history of Enqueue/Dequeue/Empty, Dequeue returns the oldest value not yet dequeued, Empty reports whether none is left, values never get lost, duplicated or reordered, and Dequeue panics exactly on an empty queue.",
  "every finite history of operations and every payload type",
  "A property of all histories.",
  ["container/queue/queue.go:New,Enqueue,Dequeue,Empty"])
# ---------------------------------------------------------------- windows
p("C04", "Moving maximum and minimum are exact",
  "For period >= 1, Max(period, v)[i] (Min) is the largest (smallest) of the last min(i+1, period) values ending at i - a member of that window bounding every member; the result has len(v) entries. The call panics exactly when period < 0, or period = 0 and v is non-empty.",
  "every period, every slice of non-NaN float64 values, every index",
  "The implementation keeps a tree and a ring buffer in step; a missed or doubled removal only shows for particular duplicate patterns and window alignments.",
  ["utils/ta/ta.go:Max,Min"])
p("C05", "Highest and Lowest scan exactly the last n values",
  "On a non-empty slice Highest(v,n) / Lowest(v,n) return the extreme of the last max(1,min(n,len v)) values and never read out of range; on an empty slice they panic.",
  "every slice of non-NaN float64, every integer n (negative and oversized included)",
  "Boundary behaviour at every n/len combination.",
  ["utils/ta/ta.go:Highest,Lowest"])
p("C06", "PivotHigh/PivotLow report exactly the confirmed pivots",
  "For left,right >= 0, entry i is the value right bars back when that value is the extreme of the left+right+1 values ending at i, and 0 otherwise (also for every i < left+right); the result has len(v) entries.",
  "every slice of non-NaN float64, all left/right >= 0, every index",
  "All window contents, tie patterns and alignments.",
  ["utils/ta/ta.go:PivotHigh,PivotLow"])
p("C07", "PivotMax/PivotMin return the window extreme and where it is",
  "For a valid index, PivotMax (PivotMin) returns the largest (smallest) value among positions index-left..index+right clipped to the slice, together with a position in that range holding it.",
  "every slice, valid index, left/right >= 0",
  "Depends on sign and tie patterns between the two sides.",
  ["utils/ta/ta.go:PivotMax,PivotMin"])
# ---------------------------------------------------------------- averages
p("C08", "Simple moving average is the mean of the window",
  "For period >= 1, Sma(period,v)[i] equals the arithmetic mean of the last min(i+1,period) values (exact arithmetic); the output has len(v) entries, no entry is NaN or -Inf whatever the float64 input; period 0 gives all zeros for every float64 input; a negative period panics exactly on non-empty input.",
  "every period, every slice, every index",
  "The running sum is updated incrementally: an off-by-one in what is subtracted only appears after the window has slid.",
  ["utils/ta/ta.go:Sma"])
p("C09", "Moving sum equals the sum of the window",
  "For period >= 0, Sum(period,v)[i] is the sum of the last min(i+1,period) values (exact arithmetic); len preserved; a negative period panics on non-empty input.",
  "every period, slice and index",
  "Incremental running sum.",
  ["utils/ta/ta.go:Sum"])
p("C10", "Exponential moving average is a convex combination",
  "For period >= 1 Ema(period,v)[0] = v[0] and Ema[i] = a*v[i] + (1-a)*Ema[i-1] with a = 2/(period+1) (exact arithmetic), hence every entry lies between the smallest and largest value seen so far, equals the closed form sum of weights (1-a)^k, is linear in v, and reproduces constant series; len preserved; never panics.",
  "every period >= 1, every slice, every index",
  "Boundedness and linearity are statements about all inputs.",
  ["utils/ta/ta.go:Ema"])
p("C11", "Double EMA",
  "Dema(period,v)[i] = 2*Ema(v)[i] - Ema(Ema(v))[i]; a constant series is reproduced; len preserved.",
  "every period >= 1, every slice",
  "All inputs.",
  ["utils/ta/ta.go:Dema"])
p("C12", "Rolling moving average follows its documentation",
  "R[0..p-1] is SMA(values) and R[i] = (R[i-1]*(p-1)+v[i])/p for i >= p.",
  "every period >= 1, every slice, every index",
  "Holds or fails per index class and period.",
  ["utils/ta/ta.go:Rma"])
p("C13", "Weighted moving average",
  "For 1 <= period <= len(v), Wma(period,v)[i] for i >= period-1 is the linearly weighted mean with weights 1..period (exact arithmetic), 0 before; it panics exactly when period > len(v)+1, or period <= 0 and v is non-empty.",
  "every period and slice, every index",
  "The weighted sum is maintained incrementally.",
  ["utils/ta/ta.go:Wma"])
p("C14", "Variance and standard deviation",
  "For 1 <= period <= len(v), Variance(v,period)[i] for i >= period-1 is the population variance of the last period values (exact arithmetic), hence >= 0, and StdDev is nbDev times its square root (0 below the 1e-14 threshold); SD(v) is the population standard deviation; Variance panics exactly when v is shorter than the period or the period is < 1.",
  "every period and slice, every index",
  "Incremental sums of values and squares.",
  ["utils/ta/ta.go:Variance,StdDev,SD"])
p("C15", "Linear regression family is least squares",
  "For 2 <= period <= len(v), LinearRegSlope/LinearRegIntercept/LinearReg at i >= period-1 are the slope, intercept and end value of the least-squares line through the last period values (exact arithmetic), so that no other line has a smaller squared error on that window; LinearReg[i] = intercept + slope*(period-1); LinearRegAngle = atan(slope) in degrees; period > len panics.",
  "every period and slice, every index, every competing line",
  "Sums of x*y are maintained incrementally; minimality quantifies over all lines.",
  ["utils/ta/ta.go:LinearReg,LinearRegSlope,LinearRegIntercept,LinearRegAngle"])
p("C16", "Least-squares helpers",
  "LeastSquare(x,y) returns the minimiser of the squared error when x is not constant; MovingLeastSquare(period,x,y)[i] equals LeastSquare on the last min(i+1,period) points (exact arithmetic).",
  "every pair of slices of equal length, every period >= 1, every competing line",
  "Minimality over all lines; incremental sums.",
  ["utils/regression.go:LeastSquare,MovingLeastSquare,LinearRegressionUsingLeastSquare,MovingLinearRegressionUsingLeastSquare"])
p("C17", "True range",
  "TRange[0] = 0 and for i >= 1 TRange[i] is the largest of high-low, |prevClose-high| and |prevClose-low| (and TrueRange computes the same), hence >= 0; for low <= high it is the length of the smallest interval containing low, high and the previous close.",
  "every triple of equally long slices of non-NaN float64",
  "All orderings of the four prices.",
  ["utils/ta/ta.go:TRange,TrueRange"])
p("C18", "ATR never crashes and is non-negative",
  "For any high/low/close of equal length and any period, Atr returns len(close) entries, each >= 0, and never panics.",
  "every slice length (including shorter than the period) and every period",
  "The failing lengths are exactly those no sample data set uses.",
  ["utils/ta/ta.go:Atr,Natr,Rma,TRange"])
p("C19", "Mean deviation and CCI",
  "MA/Dev are the mean and mean absolute deviation of the last length values (0 before and when length <= 0 or > len); CCI = (typical - Sma)/(0.015*MeanDeviation); AiCoinCCI is 0 where the deviation is 0 and does not depend on its factor argument.",
  "every slice, period and index (exact arithmetic for the mean/deviation characterisation)",
  "All inputs.",
  ["utils/ta/ta.go:MA,Dev,MeanDeviation,CCI,AiCoinCCI"])
p("C20", "Element-wise helpers",
  "MultiplyBy, Multiply, DivideBy, Divide, Add, AddBy, Subtract, Abs, Sqrt, Pow, ExtractSign, KeepPositives, KeepNegatives, RoundDigitsAll act position by position, keep the length of their first argument, and the two-slice ones panic exactly when the second is shorter than the first.",
  "all slices of all lengths",
  "All lengths and values.",
  ["utils/ta/ta.go:MultiplyBy,Multiply,DivideBy,Divide,Add,AddBy,Subtract,Abs,Sqrt,Pow,ExtractSign,KeepPositives,KeepNegatives,RoundDigitsAll"])
p("C21", "Divide never yields NaN or infinity",
  "Every entry Divide returns is neither NaN nor +/-Inf, whatever the float64 inputs (zeros, infinities, NaN, overflow).",
  "all pairs of float64 slices",
  "All bit patterns.",
  ["utils/ta/ta.go:Divide"])
p("C22", "Shift, Diff and PercentDiff",
  "ShiftRight(AndFillBy)(p,v)[i] is the fill for i < p and v[i-p] after; Diff(v,b)[i] = v[i]-v[i-b] (v[i] for i < b); PercentDiff likewise relative to v[i-b]; lengths preserved; negative shift panics on non-empty input.",
  "all slices, all shifts",
  "Boundary cases for every p/len.",
  ["utils/ta/ta.go:ShiftRight,ShiftRightAndFillBy,Diff,PercentDiff"])
p("C23", "Cross detection",
  "CrossOver is true exactly when the last value is above and the one before below the source; CrossUnder the mirror image; never both; both panic on an empty slice, and on a single value exactly when it is above (CrossOver) or below (CrossUnder) the source.",
  "all slices and thresholds",
  "All inputs including NaN.",
  ["utils/ta/ta.go:CrossOver,CrossUnder"])
p("C24", "Vector functions never look ahead",
  "For Sma, Ema, Dema, Rma, Sum, Max, Min, MA, Dev, Wma, Variance, StdDev, LinearReg*, TRange, Atr, Natr, ShiftRight, Diff, PercentDiff, PivotHigh, PivotLow, CCI, AiCoinCCI, Stochastic and the element-wise functions: appending later values never changes entries already produced, bit for bit.",
  "every input, every extension of it, every period, every float64 rounding outcome",
  "Quantifies over all continuations of the series.",
  ["utils/ta/ta.go"])
p("C25", "Stochastic bounds",
  "With low <= close <= high pointwise, Stochastic's k and d lie in [0,100] and a flat window gives 0.",
  "every period >= 1 and every series",
  "All series.",
  ["utils/ta/ta.go:Stochastic"])
# ---------------------------------------------------------------- sides
p("C26", "Signals start neutral",
  "No strategy emits a BUY for a bar on which its rule was not evaluated: bars skipped during warm-up report HOLD.",
  "every strategy, every series",
  "Depends on the zero value of the signal type.",
  ["utils/Side.go:Buy,Sell,Hold", "AnalysisSide of every indicator"])
p("C27", "RunStrategies preserves order",
  "RunStrategies returns one result per strategy, the i-th being exactly what strategy i returned, each called once in order.",
  "every list of strategies",
  "All lists and stateful strategies.",
  ["utils/interface.go:RunStrategies", "utils/Side.go:String,Strings"])
# ---------------------------------------------------------------- klines
p("C28", "RemoveDuplicates",
  "Afterwards the candles are the first candle of every timestamp, in the original order; running it again changes nothing.",
  "every candle list", "All duplicate patterns.", ["utils/klines/kline.go:RemoveDuplicates"])
p("C29", "RemoveOutsideRange",
  "Afterwards exactly the candles at start or strictly between start and end remain, in order; the Copy variant returns the same list and leaves the original item untouched.",
  "every candle list and range (empty and inverted included)", "In-place filtering aliases the slice being ranged over.",
  ["utils/klines/kline.go:RemoveOutsideRange,RemoveOutsideRangeCopy"])
p("C30", "SortCandlesByTimestamp sorts in the requested direction",
  "After SortCandlesByTimestamp(true) timestamps are in descending order, after (false) ascending, and the candles are a permutation of the original ones.",
  "every candle list and every sorting algorithm meeting sort.Slice's contract", "All permutations.",
  ["utils/klines/kline.go:SortCandlesByTimestamp"])
p("C31", "Padding fills the window",
  "addPadding on an aligned item yields exactly one candle per interval of the window, at start + k*interval, keeping every original candle that falls on the grid and empty ones elsewhere; a misaligned candle gives an error and leaves the item unchanged.",
  "every item, window and interval", "All gap patterns.", ["utils/klines/kline.go:addPadding"])
p("C32", "Interval conversion aggregates correctly",
  "For a fully padded item whose start is aligned, ConvertToNewInterval yields floor(n/k) candles with open of the first, close of the last, max high, min low and total volume of each group of k; it reports the documented error in each documented case and never panics.",
  "every item and pair of intervals", "All lengths relative to k, all prices.", ["utils/klines/kline.go:ConvertToNewInterval"])
p("C33", "Candle date ranges partition the window",
  "CalculateCandleDateRanges returns contiguous intervals of the requested length covering exactly the rounded window, in order and without overlap, at most limit per range (all in one when limit is 0), and reports an error for invalid windows or intervals.",
  "every start, end, interval and limit", "All sizes relative to the limit.", ["utils/klines/kline.go:CalculateCandleDateRanges,TotalCandlesPerInterval,CreateIntervalTime"])
p("C34", "GetOHLC and typical prices",
  "GetOHLC columns are position-by-position copies of the candle fields, all of the candle count's length; HL2/HLC3/OHLC4 lie between low and high when the candle is well formed (exact arithmetic).",
  "every item", "All items.", ["utils/klines/technical_analysis.go:GetOHLC,HL2,HLC3,OHLC4"])
p("C35", "Heikin-Ashi candles are well formed",
  "ToHeikinAshi of well-formed candles gives candles with low <= open,close <= high.",
  "every item", "All price orderings.", ["utils/klines/technical_analysis.go:ToHeikinAshi"])
p("C36", "HasDataAtDate answers for every instant of the window",
  "On a holder from CalculateCandleDateRanges whose intervals have been marked, HasDataAtDate(t) returns the flag of the unique interval containing t (to the second) and false outside the window.",
  "every holder, marking and instant", "All instants.", ["utils/klines/kline.go:HasDataAtDate"])
# ---------------------------------------------------------------- channels
p("C37", "Channel pipelines are schedule-independent",
  "Under every interleaving of the goroutines, a pipeline built from Slice2Chan, Apply, Operate, Shift, Skip, Pipe, Duplicate (as SmaT uses it) and Chan2Slice terminates and yields exactly the list its functional meaning prescribes: map, zip of the common prefix, prepend, drop; no goroutine is left blocked.",
  "every input list, every scheduler, every buffer capacity", "Scheduling nondeterminism.",
  ["helpertools/*.go", "utils/ta/ta.go:SmaT"])
p("C38", "Channel equality check is sound",
  "CheckEquals returns nil only if each pair of channels carried equal sequences, and returns an error otherwise, always terminating on finite closed inputs.",
  "every list of finite input pairs", "All length combinations.", ["helpertools/CheckEquals.go:CheckEquals"])
# ---------------------------------------------------------------- indicators: cross-cutting
p("C39", "Indicators never repaint",
  "For every indicator except SmartMoneyConcepts: if it runs on a candle series, then on any extension of that series the entries for the original candles are identical, bit for bit; the same holds for AnalysisSide.",
  "every candle series and every continuation, every parameter setting", "All continuations.",
  ["trend/*.go", "channel/*.go", "volume/*.go", "oscillator/*.go"])
p("C40", "One output row per candle",
  "After construction, GetData returns exactly one entry per candle, and AnalysisSide exactly one side per candle.",
  "every indicator, every candle series it accepts, every parameter setting", "All lengths.",
  ["trend/*.go", "channel/*.go", "volume/*.go", "oscillator/*.go"])
p("C41", "Calculation is idempotent and reads are pure",
  "Calling Calculation, GetData, GetValues or AnalysisSide again, in any order, never changes what they return.",
  "every indicator and every sequence of calls", "All call histories.",
  ["trend/*.go", "channel/*.go", "volume/*.go", "oscillator/*.go"])
# ---------------------------------------------------------------- indicators: specific
p("C42", "RSI stays in [0,100] and never crashes",
  "Every RSI entry is in [0,100]; a rising-only window gives 100, a falling-only window 0; computing it never panics whatever the number of candles.",
  "every period and closing series", "All lengths relative to the period.", ["trend/Rsi.go"])
p("C43", "MACD identity",
  "Macd = 2*(DIF-DEA), DIF = Ema(short)-Ema(long), DEA = Ema(signal, DIF); the signal is Buy/Sell exactly per its comparison rule.",
  "every parameter setting and series", "All inputs.", ["trend/Macd.go"])
p("C44", "KDJ bounds",
  "For well-formed candles RSV, K and D lie in [0,100] and J = 3K-2D; no panic for any period >= 1.",
  "every period and series", "All inputs.", ["trend/Kdj.go"])
p("C45", "trend.Atr uses the true range",
  "The TR reported by trend.Atr is max(high-low, |high-prevClose|, |low-prevClose|).",
  "every series", "Only gap-down bars separate the formulas.", ["trend/Atr.go"])
p("C46", "SuperTrend flips alternate and bands ratchet",
  "The trend is always +1 or -1; up/down start markers occur exactly on flips and therefore strictly alternate; while the trend holds, the active stop never moves against it.",
  "every series and parameters", "Path-dependent state.", ["trend/SuperTrend.go", "trend/PivotPointSuperTrend.go"])
p("C47", "UTBot trailing stop is monotone",
  "While price stays above (below) the trailing stop on consecutive bars the stop never decreases (increases).",
  "every series and parameters", "Path-dependent state.", ["trend/UTBot.go"])
p("C48", "TraderXO signals alternate",
  "Buy and Sell signals strictly alternate over any series.",
  "every series and parameters", "Path-dependent state.", ["trend/TraderXO.go"])
p("C49", "ReversalSignals counts exactly",
  "A signal at bar i is raised exactly when the running count of consecutive closes below (above) the close four bars earlier has just reached nine; both never fire on one bar.",
  "every series", "Path-dependent counters.", ["trend/ReversalSignals.go"])
p("C50", "BreakoutProbability bookkeeping",
  "Counts and percentages stay in range: number of lines in 1..5, every percentage in [0,100], wins + losses equals the number of evaluated bars.",
  "every series and parameters", "Cumulative counters.", ["trend/BreakoutProbability.go"])
p("C51", "Order block list bookkeeping",
  "The order block list never holds two blocks with the same side and time, Add puts the newest first, Remove deletes exactly the given block and keeps the rest.",
  "every sequence of list operations", "All histories.", ["trend/SmartMoneyConcepts.go", "trend/SmartMoneyConcepts_type.go"])
p("C52", "Bollinger bands",
  "Bands are MID +/- k*stddev with k the configured multiplier; Lower <= Mid <= Upper; a close crossing above the upper band yields Sell, below the lower band Buy.",
  "every series and parameters", "All inputs.", ["channel/Boll.go"])
p("C53", "Donchian and Keltner channels bracket",
  "Donchian: Lower <= close <= Upper and Middle their mean; Keltner: Lower <= Middle <= Upper symmetric about Middle.",
  "every series and period", "All inputs.", ["channel/DonchianChannel.go", "channel/KeltnerChannel.go"])
p("C54", "Ulcer index is non-negative",
  "UlcerIndex >= 0, and 0 while the close never falls below its running maximum.",
  "every series and period", "All inputs.", ["channel/UlcerIndex.go"])
p("C55", "Money flow index bounds",
  "MFI lies in [0,100]; with no negative flow in the window it is 100.",
  "every series and period", "All inputs.", ["volume/MoneyFlowIndex.go"])
p("C56", "Chaikin money flow bounds",
  "For well-formed candles with non-negative volume CMF lies in [-1,1].",
  "every series and period", "All inputs.", ["volume/ChaikinMoneyFlow.go"])
p("C57", "On-balance volume accounting",
  "OBV changes by exactly +volume, -volume or 0 according to the sign of the close change.",
  "every series", "All inputs.", ["volume/Obv.go"])
p("C58", "Volume-weighted average lies in the price range",
  "For positive volumes VWMA lies between the smallest and largest close of its window.",
  "every series and period", "All inputs.", ["volume/Vwma.go"])
p("C59", "Negative volume index",
  "NVI starts at 1000, moves only on bars with falling volume, by the relative close change.",
  "every series", "Path-dependent.", ["volume/NegativeVolumeIndex.go"])
p("C60", "Williams %R and stochastic oscillator bounds",
  "WilliamsR is in [-100,0] and the stochastic oscillator's K and D in [0,100] for well-formed candles.",
  "every series and period", "All inputs including flat windows.", ["oscillator/WilliamsR.go", "oscillator/StochasticOscillator.go"])
p("C61", "Ichimoku lines use their configured periods",
  "Conversion, base and span B are the midpoints of the highest high and lowest low over their own configured periods.",
  "every series and parameters", "Only non-default parameters separate right from wrong.", ["oscillator/IchimokuCloud.go"])
p("C62", "Camarilla levels are ordered",
  "For a previous candle with low <= high: S4 <= S3 <= ... and R levels mirror them around the close.",
  "every candle", "All prices.", ["oscillator/Camarilla.go"])
p("C63", "Oscillator formulas",
  "APO, AO, PPO, Chaikin and volume oscillators equal their defining differences / ratios of averages; their signals follow the sign changes their code documents.",
  "every series and parameters", "All inputs.", ["oscillator/*.go"])
p("C64", "Crossover strategies never buy and sell at once and react only to actual crossings",
  "Each AnalysisSide entry is determined by its documented comparison on that bar and the previous one.",
  "every series", "All inputs.", ["AnalysisSide of every indicator"])

p("C65", "Lower breakout lines count broken lows",
  "The percentage of a lower BreakoutProbability line is the share of bars whose low fell below the previous low by the line's distance, mirroring the upper lines.",
  "every series and parameters", "Cumulative counters over any history.", ["trend/BreakoutProbability.go"])

p("C66", "Smart money concepts: when the calculation succeeds",
  "Calculation of smart money concepts never panics on more than 200 candles with a non-negative swing length (and non-negative confirmation bars when equal highs/lows are enabled), whatever the values; with at most 200 candles or a negative swing length it always panics.",
  "every candle list, every value including NaN and infinities, every parameter", "All inputs.", ["trend/SmartMoneyConcepts.go Calculation"])
p("C67", "Smart money concepts: surviving order blocks",
  "After Calculation neither order block list holds two blocks of the same side and time, every block is the open/high/low/close/time of one of the candles, no block is already broken by the last close, and at most OrderBlockNumber+1 blocks remain (one more than the number asked for can remain). Each block belongs to a break: bullish-list blocks to the short scale, bearish-list blocks to the long one, a top block to a broken low and a bottom block to a broken high; it is the candle between turning point and break with the highest high (lowest low) among those moving less than twice the 200-candle average true range, the earliest of several, and the second candle of the series if there is none - which is always so for breaks in the first 200 candles. Every break adds its block unless it is there already, and every close then drops the blocks it has gone beyond and those behind the OrderBlockNumber-th: the lists are exactly what this history makes them.",
  "every candle list and parameters", "Cumulative state over any history.", ["trend/SmartMoneyConcepts.go", "trend/SmartMoneyConcepts_type.go"])
p("C68", "Smart money concepts: rows and drawn levels",
  "There is one row per candle carrying the candle's time from the first analysed candle on; every non-zero BOS/CHoCH level of a row is a real swing high (low) with the row between the swing point and the candle whose close broke it; every non-zero EQH (EQL) level joins two pivots of nearly the same height.",
  "every candle list and parameters", "Levels are written backwards over earlier rows; only an invariant over the whole run settles where they come from.", ["trend/SmartMoneyConcepts.go Calculation, swings"])
p("C69", "Smart money concepts: cleared objects calculate afresh",
  "GetData after Calculation returns the calculated rows; Clear followed by Calculation gives the rows a new object gives.",
  "every candle list and parameters", "State left over from any earlier run.", ["trend/SmartMoneyConcepts.go Clear, Calculation, GetData"])
p("C70", "Smart money concepts: BOS continues a trend, CHoCH turns it",
  "The close that first crosses the latest turning point of a scale is a break, and every break is drawn as a level from turning point to breaking candle, and nothing else is; on each scale a break in the direction of that scale's last break is a BOS, a break against it a CHoCH.",
  "every candle list and parameters", "Path-dependent.", ["trend/SmartMoneyConcepts.go Calculation"])

p("C71", "Duplicate serves concurrent readers, not consecutive ones",
  "Under every interleaving, if each output of Duplicate is read by its own goroutine, every reader receives the whole input in order and everything terminates; a caller that reads one output of an unbuffered input to its end before touching the other never returns once the input has a value.",
  "every input list, every number of outputs, every scheduler", "Scheduling nondeterminism.", ["helpertools/Duplicate.go:Duplicate"])
p("C72", "CheckEquals compares in step up to the first pair that ends",
  "Under every interleaving CheckEquals on finite closed channels returns; an odd number of channels is an error; otherwise it returns nil exactly when some pair ends on both sides at index i and everything compared before that (all pairs at smaller indices, earlier pairs at index i) was present and equal. So for channels of one common length it returns nil exactly when every pair is equal.",
  "every list of finite input channels of every capacity, every scheduler", "All length combinations and interleavings.", ["helpertools/CheckEquals.go:CheckEquals"])

p("C73", "Moving-average indicators return their moving averages of the closes",
  "Ma and Sma return, for every period, the simple moving average of the closes (in exact arithmetic the mean of the last p closes, fewer at the start); Ema the exponential one; Dema twice the EMA minus the EMA of the EMA; TraderXO and EMA Vegas one EMA per parameter; Rma one blank row per candle followed by the Wilder averages.",
  "every candle list, every period, both number models", "All inputs and periods.", ["trend/Ma.go", "trend/Sma.go", "trend/Ema.go", "trend/Dema.go", "trend/Rma.go", "trend/TraderXO.go", "trend/EMAVegas.go"])
p("C74", "RSI follows Wilder's recurrence",
  "With 2 <= p < number of candles the RSI is 0 on the first p bars; from bar p on it is 100*gain/(gain+loss), where the averages start as the mean of the first p changes and continue as (old*(p-1)+new)/p; it is 0 when gain+loss is within 1e-14 of 0. With p < 2 or more than the candles all values are 0.",
  "every candle list and period, both number models", "A recurrence over any history.", ["trend/Rsi.go"])
p("C75", "Force index, ease of movement and volume price trend formulas",
  "Force index is the EMA of close change times volume (first change taken from 0); ease of movement is the SMA of mid-point change over box ratio, with quotients that are 0 when undefined; volume price trend is the running total of volume times relative change against the close p bars before (the first close before that). Volume price trend panics without candles.",
  "every candle list and period, both number models", "All inputs.", ["volume/ForceIndex.go", "volume/EaseOfMovement.go", "volume/VolumePriceTrend.go"])
p("C76", "Stochastic RSI formula and range",
  "K is the EMA of the position of the RSI between its lowest and highest value of the window, D the EMA of K; both lie in [0,100]. Calculation panics exactly when the RSI period equals the number of candles (and is at least 2).",
  "every candle list of ordinary prices and parameters, both number models", "Rounding and all inputs.", ["trend/StochRsi.go"])
p("C77", "Vortex indicator is the ratio of the last p movements to the last p true ranges",
  "VI+ (VI-) is the sum of the last p up (down) movements divided by the sum of the last p true ranges and is never negative; a negative period panics, period 0 panics from two candles on.",
  "every candle list and period", "Running sums over any history, rounding.", ["trend/Vortex.go"])
p("C78", "ADX: directional indicators and their average",
  "+DI and -DI are 100 times the Wilder-smoothed directional movements over the smoothed true range, not negative, at most 100 together; the ADX is the mean of the last n directional indices and lies in [0,100]. A period of 0 or less panics.",
  "every candle list and parameters", "A recurrence over any history.", ["trend/AverageDirectionalIndex.go"])

p("C79", "Commodity channel indices",
  "Cci reports the commodity channel index of the typical prices, AiCoinCCI that of the closes: 0 until the window is full, then the deviation from the window's mean over 0.015 times its mean absolute deviation. On a flat window AiCoinCCI is 0 and Cci is not a number. Cci panics exactly for a period of 0 or less, or a negative smoothing period with candles; AiCoinCCI never panics.",
  "every candle list and parameters, exact arithmetic for the closed form", "All inputs and periods.", ["trend/Cci.go", "trend/AiCoinCCI.go"])
p("C80", "Chandelier exit hangs three ATRs off the extremes",
  "The long exit is the highest high of the window minus three times the ATR of the same candle, the short exit the lowest low plus three times the ATR; it makes no difference whether the object had been calculated before.",
  "every candle list without NaN and window, both number models", "All inputs; hidden state of the object.", ["trend/Atr.go"])
p("C81", "Linear regression candles",
  "Open, high, low and close of each regression candle are the end points of the least squares lines through the last n opens, highs, lows and closes (0 before n candles); the signal is the chosen moving average of the regression closes. Calculation panics exactly when the length is 0 or less or exceeds the candles, or the signal is an SMA with a negative period.",
  "every candle list and parameters", "All inputs; least squares minimality.", ["trend/LinearRegressionCandles.go"])
p("C82", "Stochastic heat adds up 28 stochastics",
  "The fast line is the total of 28 stochastic oscillators with windows inc, 2 inc, ..., 28 inc, each smoothed by the chosen moving average, scaled down by 100; the slow line is the chosen moving average of the fast one. If every close lies in its bar both lines lie between 0 and 28. With weighted averages it panics when a smoothing period exceeds the number of candles by more than one.",
  "every candle list and parameters", "All inputs; rounding-free range argument.", ["trend/StochasticHeat.go"])

p("C83", "Smart money concepts: strong and weak highs and lows",
  "After Calculation the marked high (low) is the highest high (lowest low) since the latest turning point of the long scale, dated at its last occurrence; the high is marked strong if the last long-scale break was one of a low and weak otherwise, the low strong if it was one of a high and weak otherwise.",
  "every list of more than 200 candles with positive prices, every swing length from 1 to below the number of candles", "Trailing extremes and trend depend on the whole history of swings and breaks.", ["trend/SmartMoneyConcepts.go Calculation"])
p("C84", "Projection oscillator",
  "Fit a line to the last p highs and the last p lows of every bar, bars numbered from the first candle, and add the slope times the bar's number to its high and low. The oscillator places the close between the lowest and the highest of the last p values obtained, in percent; it is 0 for the first p bars and when the two coincide. Spo is its exponential average. It is not confined to [0,100], even when every close lies in its bar.",
  "every candle list and parameters with p at least 2, exact arithmetic for the closed form", "The first slope is 0/0 and this NaN passes through a search tree for p bars; all inputs.", ["oscillator/ProjectionOscillator.go"])
p("C85", "Rounding errors of moving sums and averages in float64",
  "For finite float64 inputs of magnitude at most M, Sum, Sma and Ema return finite values. At bar i a moving sum differs from the exact sum of its window by at most (i+1)(min(i+1,p)+1)M/2^51, a simple moving average from the exact mean by at most (i+2)M/2^50 plus half the least positive float64, an exponential one from the exact recursion by at most (p+1)(M/2^51 + the least positive float64), at every bar however long the history. The error of a moving sum can persist for ever: after a single 2^60 the two-bar sums of ones are 0.",
  "every list of finite float64 values of up to 2^50 elements (no limit for Ema), every M up to 2^960, every period up to 2^38 (2^36 for Ema)", "A bound on the accumulated error of every possible history; tests compare a few histories with rounded expectations.", ["utils/ta/ta.go Sum", "utils/ta/ta.go Sma", "utils/ta/ta.go Ema"])
p("C86", "Rounding to decimal digits",
  "RoundDigit(n, d) returns, in exact arithmetic, the multiple of 10^-d nearest to n, halves away from zero (a negative d counts as 0): at most half a unit away, unchanged by rounding again, order preserving and odd. In float64 with d up to 22 and n of at most 2^50 units it is an integer number k of units, nearest up to the rounding of the product n*10^d, divided by 10^d with one rounding, and rounding again changes nothing; the nearest multiple can be missed (4.35 becomes 4.4). From d = 309 on it is NaN for every n. Integers of at most 2^53 units are returned unchanged, 2^53+1 is not. RoundDigits delivers the rounded values of a channel in order and ends under every schedule. The RoundDigits of utils/ta agrees for d >= 0 and rounds to tens, hundreds and so on for d < 0.",
  "every number and every d; every schedule for the channel version", "All numbers and digits; accumulated rounding; all schedules.", ["helpertools/RoundDigit.go RoundDigit", "helpertools/RoundDigits.go RoundDigits", "utils/ta/ta.go RoundDigits"])
p("C87", "Changing the units of price and volume",
  "Multiplying every price by a > 0 and every volume by b > 0 (another currency, another lot size) changes no signal of 21 strategies and multiplies the values of 42 indicators by the factor of their dimension: price, volume, price times volume, price squared by volume, or 1 for percentages and ratios. SuperTrend does so with ChangeATR set; without it a percentage is added to a price and the signals depend on the currency. Rsi, StochRsi and Kdj compare price differences with built-in constants (1e-14, 1e-6), and their signals change with the unit.",
  "all candles (NaN and infinities included), all a, b > 0, all parameters; exact arithmetic for what holds, float64 with power-of-two factors for the counterexamples", "All histories and all factors.", ["trend/", "channel/", "volume/", "oscillator/", "trend/Rsi.go", "trend/Kdj.go calculationRSV", "trend/SuperTrend.go"])
p("C88", "Which candle fields matter",
  "The values of each indicator depend on the candles only through the fields listed for it (for instance moving averages: the closes; stochastics and channels: high, low, close; volume indicators: closes and volumes); amount, count, change, time and the other fields have no influence. The same for the signals of each strategy (Camarilla: open, high, low, close and the times; EMAVegas: close and the bull flag). Every field listed does matter. What SmartMoneyConcepts finds depends on open, high, low, close and time only.",
  "every pair of candle series that agree in the listed fields, all parameters, every arithmetic including float64", "Quantifies over all pairs of inputs.", ["trend/", "channel/", "volume/", "oscillator/", "utils/klines/technical_analysis.go GetOHLC"])
p("C89", "Levels of the SuperTrend and PivotPointSuperTrend lines",
  "SuperTrend's lower line is (high+low)/2 minus the multiplier times the average true range, the upper line plus it; the lower one does not fall below yesterday's while yesterday's close was above it, the upper one does not rise above yesterday's while yesterday's close was below it. PivotPointSuperTrend does the same around a centre line, which starts at the first confirmed pivot and moves a third of the way to each new one (a high pivot before a low one). With positive prices the centre always lies between the lowest low and the highest high so far.",
  "every candle list and parameters on which the indicator does not panic, any arithmetic; exact arithmetic for the position of the centre", "Recurrences over the whole history; all inputs.", ["trend/SuperTrend.go", "trend/PivotPointSuperTrend.go"])
p("C90", "Which inputs crash which indicator",
  "For each of the 46 indicator types a condition on the parameters and the number n of candles says exactly when asking for the data panics (slice index or length out of range): never for 21 types (Ema, Macd, Atr, Obv, Chaikin, ...); otherwise only for negative or zero periods, except Rsi (and StochRsi) with exactly n = period, Kdj with period 1, SuperTrend, PivotPointSuperTrend and UTBot with n <= ATR period, LinearRegressionCandles with n < length, VolumePriceTrend with no candle, StochasticHeat with n too short for its weighted averages. Prices, volumes and times never matter, NaN and infinities included. Asking for the sides panics on the same inputs and no others. With the NewDefault parameters: Rsi and StochRsi at n = 14, SuperTrend at n <= 10, PivotPointSuperTrend at n <= 8, LinearRegressionCandles at n < 11, VolumePriceTrend at n = 0, StochasticHeat at n < 25, the others never.",
  "every indicator type, all parameters, every candle list (any prices, volumes and times), any arithmetic; up to 2^53 candles for ProjectionOscillator", "Tests run on one list of a few hundred candles; the crashing lengths are single values of an unbounded set.", ["trend/*.go", "channel/*.go", "volume/*.go", "oscillator/*.go", "utils/ta/*.go"])
p("C91", "Which arguments crash which ta function",
  "For each exported function of the ta package and of the regression file a condition on the integer arguments and the slice lengths says exactly when the call panics; the values never matter (NaN and infinities included) except for CrossOver/CrossUnder on a one-element slice. The element-wise functions, Ema, Dema, Rma, MA, Dev and AiCoinCCI never panic. A second slice shorter than the first crashes Add, Subtract, Multiply, Divide and the regressions; a longer one never does. Atr and Natr panic when there are at most as many candles as the period, Variance, StdDev and the linear regressions when there are fewer, Wma when there are fewer than period-1.",
  "every slice (any lengths, also different ones, any values), every integer argument, any arithmetic", "Unbounded lengths and periods; one list in a test cannot separate the crashing ones.", ["utils/ta/ta.go", "utils/regression.go"])
p("C92", "Which output numbers are finite",
  "On candles with prices above 0, low <= open, close <= high and volume not negative, and with periods of at least 1, every number in every output row of every indicator is finite (no NaN, no infinity), with four exceptions that are characterised exactly: Williams %R is not finite when its window holds one price only; the vortex lines when no bar of the window left the previous close; the directional lines when no bar left the previous close since the start (smoothing length 1: the last bar); the CCI when every typical price of its window equals the moving average.",
  "every indicator, every well-formed candle list of any length, every parameter setting in range, every row; exact arithmetic", "A division by zero needs a particular coincidence of prices somewhere in an unbounded history; tests only sample ordinary data.", ["every Calculation of trend/, channel/, oscillator/, volume/", "trend/Vortex.go", "trend/AverageDirectionalIndex.go", "trend/Cci.go", "oscillator/WilliamsR.go"])
p("C93", "Candles that change while an object lives",
  "A caller adds, removes or replaces candles of the item an object was built on and goes on calling its methods. GetData and AnalysisSide should then report on the current candles, at the latest after Calculation. What holds: nine types copy the candles at construction and answer for those for ever; the others keep the rows of the first read until Calculation is called; then 11 replace and 26 append them (Obv with wrong values); AnalysisSide without a new Calculation says BUY for every candle added and crashes after candles were removed.",
  "every indicator type, every candle list before and after the change, every sequence of method calls and changes, any arithmetic", "All histories of calls and changes; a test replays one.", ["NewX, Calculation, GetData and AnalysisSide of every indicator", "volume/Obv.go:Calculation"])
p("C94", "Small exported helpers",
  "GenerateNumbers counts from begin in steps of step and stops before end (it stops half a step before it), and crashes exactly when end lies half a step or more on the wrong side; Cum is the sum and Mean the average of the values; trend.ComputeCCI is 0 where the deviation is 0 and (close - average) / (0.015 deviation) elsewhere, and crashes exactly when an entry it needs is missing; TotalCandlesPerInterval is the number of whole intervals in the window; IntervalTime.Equal compares whole seconds; StartEndTimeCheck accepts exactly the windows with both ends set, start before end and not in the future, and names the fault otherwise; Item.Clear leaves no candle and sets the shared slots to nil without touching the candles.",
  "every argument, every slice length, every window, every memory an item lives in", "All reals, lengths and instants; a test tries a handful.", ["utils/ta/ta.go:GenerateNumbers,Cum,Mean", "trend/AiCoinCCI.go:ComputeCCI", "utils/klines/kline.go:TotalCandlesPerInterval,IntervalTime.Equal,Clear", "utils/commonutils/common.go:StartEndTimeCheck"])
p("C95", "How much history a value depends on",
  "Two users with different pasts but the same last candles read, in exact arithmetic, the same values once k common candles have been seen: k is the period for Ma, Sma, Vwma, CMF, Donchian, Williams, Boll, Cci, AiCoinCCI and LinearRegressionCandles, the period plus one for EMV, MFI and Vortex, the period for the Stochastic K and two more for its signal, 1 for the Camarilla levels, and the window lengths of each Ichimoku line. One candle less is not enough for Sma. Ema never forgets: the influence of the past is multiplied by 1 - 2/(p+1) with every candle, and stays non-zero for p >= 2. In float64 Sma and Ema of two pasts differ by that plus a stated rounding error.",
  "every pair of candle histories of any lengths, every common continuation, every period, every bar", "Quantifies over pairs of unbounded histories; a test compares two fixed files.", ["trend/Sma.go", "trend/Ma.go", "volume/Vwma.go", "volume/ChaikinMoneyFlow.go", "volume/EaseOfMovement.go", "volume/MoneyFlowIndex.go", "trend/Vortex.go", "channel/Boll.go", "channel/DonchianChannel.go", "oscillator/WilliamsR.go", "oscillator/StochasticOscillator.go", "oscillator/Camarilla.go", "oscillator/IchimokuCloud.go", "trend/LinearRegressionCandles.go", "trend/Cci.go", "trend/AiCoinCCI.go", "utils/ta/ta.go:Sma,Ema"])
p("C96", "Higher prices never lower an average or an extreme",
  "If one series is nowhere above another, then so are their moving maxima and minima, Highest and Lowest, Ema and Rma - in exact arithmetic and in float64, rounding, overflow and NaN included - and, in exact arithmetic, their Sum, Sma and Wma. It fails for Dema, whose old prices have negative weight, and for Sum and Sma in float64, where raising one price may lower a later average to 0.",
  "every pair of series of equal length, one nowhere above the other, every period, every bar", "A relation between all pairs of inputs; in float64 it depends on every rounding along the way.", ["utils/ta/ta.go:Max,Min,Highest,Lowest,Ema,Rma,Sum,Sma,Wma,Dema"])
p("C97", "Adding a constant to every price moves averages and bands by it and leaves oscillators and signals alone",
  "When the same constant is added to every open, high, low and close (a back-adjusted contract), then in exact arithmetic Ma, Sma, Ema, Dema, the TraderXO and EMAVegas lines, Boll, Donchian and Keltner bands, LinearRegCandles and (where there is volume) Vwma move by exactly that constant; Macd, AbsolutePriceOscillator, AwesomeOscillator, Obv, AccumulationDistribution, ChaikinOscillator, ChaikinMoneyFlow, Rsi, Kdj, WilliamsR, StochasticOscillator, Vortex, ADX, Cci, AiCoinCCI, Atr and the Boll deviation do not change, nor do the signals of Macd, AbsolutePriceOscillator, AwesomeOscillator, ChaikinOscillator, Kdj, Rsi, WilliamsR, StochasticOscillator, Cci, AiCoinCCI, Boll, Donchian, Keltner, TraderXO and EMAVegas. It fails where the missing previous price of the first bar is taken to be 0: ForceIndex, EaseOfMovement and the first true range.",
  "every real constant, every list of real candles, every valid period", "A relation between the results on infinitely many pairs of charts.", ["trend/Macd.go:AnalysisSide", "trend/Rsi.go:AnalysisSide", "trend/Kdj.go:AnalysisSide", "trend/Cci.go:Calculation", "trend/Atr.go:Calculation", "trend/AverageDirectionalIndex.go:Calculation", "channel/Boll.go:AnalysisSide", "channel/DonchianChannel.go:AnalysisSide", "channel/KeltnerChannel.go:AnalysisSide", "volume/ForceIndex.go:Calculation", "volume/EaseOfMovement.go:Calculation"])
p("C98", "Turning the chart upside down turns every verdict around",
  "When every price x is replaced by c - x (the inverse spread: high and low change places, rising candles fall), then in exact arithmetic Ma, Sma, Ema, Dema, the TraderXO and EMAVegas lines, LinearRegCandles (with high and low exchanged), Vwma, the Ichimoku base line, span B and lagging line (the conversion line and span A when the conversion period is 9), and the Boll and Donchian bands (upper and lower exchanged) become c minus their value; Macd, AbsolutePriceOscillator, AwesomeOscillator, Obv, AccumulationDistribution, ChaikinOscillator, ChaikinMoneyFlow, Cci and AiCoinCCI change sign; Rsi becomes 100 minus its value (or both are 0, without any movement), Kdj and StochasticOscillator 100 minus theirs as long as the prices of each window differ, and WilliamsR -100 minus its value; the two lines of Vortex and of ADX change places and ADX stays; and Buy and Sell change places for Macd, AbsolutePriceOscillator, AwesomeOscillator, ChaikinOscillator, WilliamsR, Cci, AiCoinCCI, Donchian, Keltner, Kdj, StochasticOscillator and TraderXO from the second bar on for Ichimoku with conversion period 9 from the tenth and for EMAVegas from the twelfth. It fails for the Ichimoku conversion line with another period, whose highs are always taken from nine bars, for the true range of trend.Atr, which counts gaps up but not gaps down, hence for the Keltner bands, and for the signals of Boll, which never says Sell, and of Rsi, whose two thresholds are both crossed downwards.",
  "every real constant, every list of real candles, every valid period", "A relation between the results on infinitely many pairs of charts; a one-sided bug shows only on charts that fall.", ["trend/Atr.go:Calculation", "trend/Rsi.go:Calculation,AnalysisSide", "trend/Kdj.go:Calculation,AnalysisSide", "trend/Macd.go:AnalysisSide", "trend/Vortex.go:Calculation", "trend/AverageDirectionalIndex.go:Calculation", "trend/EMAVegas.go:AnalysisSide", "trend/TraderXO.go:AnalysisSide", "channel/Boll.go:AnalysisSide", "channel/DonchianChannel.go", "channel/KeltnerChannel.go", "oscillator/WilliamsR.go", "oscillator/StochasticOscillator.go", "oscillator/ChaikinOscillator.go"])
p("C99", "A market in which nothing happens",
  "When every open, high, low and close is one and the same positive price, whatever the volumes, then in exact arithmetic every average and every band is that price (Ma, Sma, Ema, Dema, the TraderXO and EMAVegas lines, Boll, Donchian, Keltner, the Camarilla levels, the Ichimoku lines, the SuperTrend and UTBot stops from the second row on, the LinearRegressionCandles after their warm-up, Vwma if something was traded), every measure of change is 0 (Atr, the Boll deviation, Macd, AbsolutePriceOscillator, AwesomeOscillator, PercentagePriceOscillator, Obv, AccumulationDistribution, ChaikinOscillator, ChaikinMoneyFlow, EaseOfMovement, VolumePriceTrend, UlcerIndex, StochasticOscillator, Rsi, StochRsi, ProjectionOscillator, StochasticHeat, the ADX line of AverageDirectionalIndex; with steady volume also VolumeOscillator and MoneyFlowIndex), NegativeVolumeIndex stays at 1000, and every signal from the second bar on is Hold (Rsi, StochRsi, StochasticOscillator, Macd, AbsolutePriceOscillator, AwesomeOscillator, ChaikinOscillator, PercentagePriceOscillator, Boll, Donchian, Keltner, Cci, AiCoinCCI, Kdj, WilliamsR, Camarilla, TraderXO, UTBot, SuperTrend, PivotPointSuperTrend, ProjectionOscillator, StochasticHeat; Ichimoku from its conversion period and EMAVegas from the twelfth bar on). SmartMoneyConcepts with its default settings finds no break, no order block and no strong level there, in float64 too, and even when all highs are one price, all lows another and all closes a third. It fails for ReversalSignals, which sells the thirteenth candle of every flat market; for Kdj, whose K climbs from 50 to 100; for WilliamsR, the vortex lines and the directional lines of AverageDirectionalIndex, which are not numbers; for ForceIndex, whose first row is price times volume; for MoneyFlowIndex, which at every standing price buys when the volume falls twice; and for TraderXO in float64, which buys when rounding parts its two averages.",
  "every positive price, every number of flat candles, every volume, every valid period", "All prices and lengths; in float64 the spurious signal appears at some prices only.", ["trend/ReversalSignals.go:Calculation", "trend/Kdj.go:Calculation,AnalysisSide", "trend/TraderXO.go:AnalysisSide", "trend/SuperTrend.go:Calculation,AnalysisSide", "trend/UTBot.go:Calculation,AnalysisSide", "trend/PivotPointSuperTrend.go:Calculation,AnalysisSide", "oscillator/WilliamsR.go:Calculation", "volume/ForceIndex.go:Calculation", "channel/Boll.go:Calculation,AnalysisSide", "trend/Rsi.go:Calculation", "oscillator/Camarilla.go", "oscillator/IchimokuCloud.go", "volume/MoneyFlowIndex.go:Calculation,AnalysisSide", "trend/AverageDirectionalIndex.go:Calculation", "trend/Vortex.go:Calculation", "oscillator/ProjectionOscillator.go", "trend/StochasticHeat.go", "trend/SmartMoneyConcepts.go:Calculation"])
p("C100", "A strategy's name in the results of RunStrategies tells which strategy it was",
  "RunStrategies returns, in order, the name and the signals of each object. Two objects with the same name are of the same type. For nineteen of the twenty-five types the name also fixes every parameter, so that the same name in the results of one run means the same signals. It fails for SuperTrend (the changeAtr flag is not in the name), UTBot (the ATR period is not) and EMAVegas (its first period is not): two objects with one name and different signals exist. The name of AbsolutePriceOscillator carries no parameter, that of Camarilla not the daily candles, that of PivotPointSuperTrend only the printed digits of its factor.",
  "every list of objects with any integer parameters, negative ones included, every candle list, any arithmetic, any text of a float", "All pairs of parameters; a clash needs two particular settings.", ["utils/interface.go:RunStrategies", "NewX of trend/, channel/, volume/, oscillator/", "trend/SuperTrend.go:NewSuperTrend", "trend/UTBot.go:NewUTBot", "trend/EMAVegas.go:NewEMAVegas"])
p("C101", "The report of the demonstration program",
  "On any candle list in the place of the built-in one, the program prints one line per candle, in order: its number counted from 1, its time, its close, and for each of the eleven default strategies, in order, its name and the signal it gave for that candle, BUY in green, SELL in red, HOLD plain. Lines already printed do not change when candles are added. It crashes on exactly 14 candles (the default Rsi does) and on no other number.",
  "every candle list of any length and any prices, any arithmetic, any text of floats and times", "Tests run the one built-in list; the crash is at one length.", ["main.go:main,getColorSide", "utils/interface.go:RunStrategies", "trend/Rsi.go"])
p("C102", "Signals are Buy, Sell or Hold and print as such",
  "Every value AnalysisSide returns is Buy, Sell or Hold, and the list of signals prints as a list of the same length of BUY, SELL and HOLD in the same places, never UNKNOWN.",
  "every strategy type, all parameters, every candle list (NaN and infinities included), any arithmetic", "All inputs; Side is an integer type with 2^32 values.", ["AnalysisSide of trend/, channel/, volume/, oscillator/", "utils/Side.go:String"])
p("C103", "Items that share nothing do not influence each other",
  "RemoveOutsideRangeCopy, ToHeikinAshi and ConvertToNewInterval leave every item as it was and return one that shares neither slice nor candles with any other: whatever a program does afterwards with the result (and with items it makes from it) - sorting, removing, clearing, appending, reslicing, overwriting candles or slots - every other item keeps showing the same candles, and whatever it does with the other items the result keeps showing its own. More generally an item is unaffected by any history of operations on items through which neither its slice nor its candles can be reached.",
  "every memory of candles and slices, every item, every history of operations of any length on any pool of items, any arithmetic", "All histories and all ways items can be wired together in memory; a test replays one.", ["utils/klines/kline.go:RemoveOutsideRangeCopy,ConvertToNewInterval,RemoveOutsideRange,RemoveDuplicates,SortCandlesByTimestamp,Clear", "utils/klines/technical_analysis.go:ToHeikinAshi"])
p("C104", "What items with the same slice see of each other's edits",
  "When two items were built on one slice, an edit through one shows in the other exactly as follows. RemoveDuplicates and RemoveOutsideRange: the kept candles, followed by the other's own old candles from that position on - so after RemoveDuplicates no time stamp is lost, but some may be there twice; SortCandlesByTimestamp: the shared part is sorted for both; Clear: the slots are nil and every function that reads the other item's candles crashes; appending to the shortened item overwrites the other's next candle. The candles themselves are never written.",
  "every memory, every pair of items on one array, every list of candles, every window", "Depends on which items share memory and on every length; tests use one item.", ["utils/klines/kline.go:RemoveDuplicates,RemoveOutsideRange,SortCandlesByTimestamp,Clear"])
p("C105", "The rows GetData returns belong to the caller",
  "The rows a caller got from GetData stay what they were, whatever is called on whichever object of the type afterwards, with whichever candles, and whatever the caller does with rows it got from other objects; Calculation changes the rows of no other object. The converse holds only in part: a row the caller overwrites is overwritten in the object, which computes its signals from it, and in no other object. A row the caller appends to the rows it was given is its own for the nineteen types that allocate their rows; for the types that append (all but Obv proved) there are executions in which the next Calculation replaces it, and executions in which it replaces a row of the object.",
  "every history of calls, assignments, appends and reslicings of any length, any number of objects, every growth policy of append, every candle list and parameter, any arithmetic", "Depends on the capacity the runtime chose and on the order of all calls; a test sees one.", ["GetData,Calculation,Clear of trend/, channel/, volume/, oscillator/", "trend/Ma.go:Calculation,GetData", "trend/Ema.go:Calculation", "channel/Boll.go:Calculation", "trend/Rma.go:Calculation"])
p("C106", "Away from ties float64 gives the exact signals",
  "Run on float64 prices of magnitude at most M, AbsolutePriceOscillator, AwesomeOscillator, Macd, TraderXO, Ema, EMAVegas, IchimokuCloud and the middle lines of KeltnerChannel and DonchianChannel are within a fixed multiple of M/2^51 + 2^-1074 of what exact arithmetic gives on the same chart - the multiple depends on the periods only, not on the length of the history. So AnalysisSide of the first four, of the two channels and of IchimokuCloud returns the exact signal at every bar where the exact values it compares are further apart than that (TraderXO: at that bar and all before; IchimokuCloud: from the bar on where it starts to compare). The edges of DonchianChannel and the lagging line are exact. Without that distance it may not: on a market standing still at 495.44 TraderXO buys.",
  "every chart of float64 prices up to 2^960, of any length, every period from 1 to 2^32 - 1", "All charts and all roundings; no test can compare with exact arithmetic on all of them.", ["oscillator/AbsolutePriceOscillator.go", "oscillator/AwesomeOscillator.go", "trend/Macd.go", "trend/TraderXO.go", "trend/Ema.go", "trend/EMAVegas.go", "channel/KeltnerChannel.go", "channel/DonchianChannel.go", "oscillator/IchimokuCloud.go", "utils/ta/ta.go:Ema,Max,Min"])
p("C107", "Goroutines with indicator objects of their own do not disturb each other",
  "Any number of goroutines, each working with indicator objects of its own, see under every schedule what each would see if it ran alone; in particular GetData on a new object returns the rows of the candles. Objects that already have their rows may be shared: any number of goroutines may call GetData on them, nothing is written and each gets the rows of the object. A new object may not be shared: when two goroutines call GetData on it there is, for every type that appends its rows, a schedule under which the second one gets the first row only and one after which the object holds every row twice, and, for every type that allocates its rows, a schedule under which the second one gets rows of zeros.",
  "every schedule, any number of goroutines and objects of any types, every program that keeps to its own objects, every candle list and parameter, every growth policy of append, any arithmetic", "All interleavings; a test runs a few of them and cannot force the rare ones.", ["GetData,Calculation of trend/, channel/, volume/, oscillator/", "trend/Ma.go:GetData,Calculation", "trend/Ema.go:GetData,Calculation", "channel/Boll.go:Calculation"])
p("C108", "Conversions of intervals compose and are local",
  "Converting an item to k1 times its interval and the result to k2 times that gives the same bars (time, open, high, low, close, change, colour) as converting to k1*k2 times the interval at once; in exact arithmetic also the same volumes, in float64 the volumes may differ by rounding. Converting a stretch of the history that consists of whole new bars gives that stretch of the converted history, volumes included: no candle before or after matters.",
  "every item with evenly spaced candles in whole groups on a border of the new interval, of any length, every pair of factors from 2 on, every stretch, float64 and exact arithmetic", "All factors, lengths and prices; a test converts one list once.", ["utils/klines/kline.go:ConvertToNewInterval,CalculateCandleDateRanges"])
p("C109", "The steps that clean a list of candles may be taken in any order",
  "RemoveDuplicates and RemoveOutsideRange leave the same candles in the same order, whichever is called first. Two ranges one after the other leave the candles that are in both; the same range again changes nothing. Sorting candles that have no time twice has one result, whatever sorting algorithm is used and whatever order they came in; with duplicates still in it the list may be sorted in several ways, and removing the duplicates afterwards may keep either candle.",
  "every item in memory, every list of candles, every pair of ranges (reversed and empty ones included), every sorting algorithm", "All lists and ranges, and all results sort.Slice may produce.", ["utils/klines/kline.go:RemoveDuplicates,RemoveOutsideRange,SortCandlesByTimestamp"])
p("C110", "The text of an interval tells which interval it is",
  "Interval.String writes every interval so that it can be read back: the sum of the numbers it prints times their units (h, m, s, ms, \u00b5s, ns) is the interval, to the nanosecond and with its sign; so two intervals with the same text are the same. An interval of whole seconds from an hour on is written as hours, minutes and seconds, without superfluous zeros and without a fraction, minutes and seconds below 60. SevenDay and OneWeek are the same interval; all other named intervals differ and print differently.",
  "every interval an int64 can hold, negative ones included", "2^64 intervals; a test prints a few.", ["utils/klines/kline.go:Interval.String,Interval.Duration", "utils/klines/kline_type.go:Interval constants"])
p("C111", "SmartMoneyConcepts finds the same structure in every currency",
  "Multiplying every price by a > 0 and every volume by b > 0 leaves what a new SmartMoneyConcepts object finds unchanged in exact arithmetic, but for the prices, which are multiplied by a: the same breaks of structure and changes of character on the same bars, the same order blocks with the same times and kinds, the same equal highs and lows, the same strong and weak highs and lows. This holds as long as no low is above 99999999 in either currency. Beyond that it fails: the search for the lowest low starts from 99999999, finds nothing, and the order block becomes the first candle of the history.",
  "every candle list of any length (NaN and infinities in opens, highs and closes included), all a, b > 0, all parameters; exact arithmetic for what holds, float64 with a power of two for the counterexample", "All histories and all factors; the constant only matters for prices no test uses.", ["trend/SmartMoneyConcepts.go:Calculation,obCoord"])
p("C112", "What later candles change in the rows of SmartMoneyConcepts",
  "SmartMoneyConcepts redraws old rows. When candles are added to a chart, the row of an old candle keeps its time, and each of its ten levels either stays what it was or becomes a level that one of the added candles draws: its close crosses that very level upwards (highs) or downwards (lows), or, for equal highs and lows, it confirms a pivot that is not before the old candle. A BOS or CHoCH level that is shown may be replaced by that of a later break but, on a chart without negative prices, never disappears. Old rows do change: levels appear on rows that had none.",
  "every candle list with more than 200 candles, every list of added candles, every parameter setting, every row and level, any arithmetic (no level disappears: float64 and exact arithmetic)", "All histories and all continuations; a test sees one.", ["trend/SmartMoneyConcepts.go:Calculation"])
p("C113", "Which settings of SmartMoneyConcepts influence what",
  "The BOS and CHoCH levels, the row times and the strong and weak highs and lows depend, for given candles, on the swing length alone. The settings for equal highs and lows change only the equal highs and lows; while those are switched off, the confirmation and the threshold have no effect at all. The number of order blocks changes no level, and the order blocks depend on the swing length and that number alone.",
  "every candle list, every two settings that agree as said, any arithmetic", "All pairs of settings on all charts; a test compares a few.", ["trend/SmartMoneyConcepts.go:Calculation", "trend/SmartMoneyConcepts.go:NewSmartMoneyConcepts"])
here = os.path.dirname(os.path.abspath(__file__))
with open(os.path.join(here, "..", "properties.jsonl"), "w") as f:
    for x in sorted(P, key=lambda d: int(d["id"][1:])):
        f.write(json.dumps(x, ensure_ascii=False) + "\n")
print(len(P))
