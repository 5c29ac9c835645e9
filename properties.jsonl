{"id": "C01", "title": "Looping over a context visits every bar once, in order", "statement": "Looping `for _ in ctx` over a fresh context over a provider with start tick a and end tick b runs the body exactly b-a+1 times; on the k-th iteration the shared bar index is a+k, so every component called in the body sees bars a, a+1, ..., b in order; then the loop ends. Calling the iterator again after the end never yields another bar.", "quantifier": "every provider with a<=b, every component called in the loop, every loop body that does not panic", "why_tests_cant": "The number of iterations is unbounded; tests use one series length.", "anchors": ["pace/src/core/context.rs: Context::new, impl Iterator for Context, Bar::index"]}
{"id": "C02", "title": "Clones of a context share one position", "statement": "All clones of a context, at any depth of cloning and in any order of use, show the same bar index; advancing any one of them advances all of them, contexts created separately are unaffected, and starting a second loop over a clone does not restart at the first bar but continues from the shared position.", "quantifier": "every sequence of clone / next operations on any set of handles", "why_tests_cant": "Depends on arbitrary interleavings of handle use; tests use one handle.", "anchors": ["pace/src/core/context.rs: Context::clone, impl Iterator for Context"]}
{"id": "C03", "title": "Look-back accessors return exactly the requested earlier bars", "statement": "`ctx.high(n)` (likewise low, close, volume) returns the value n bars before the current one and `None` while fewer than n bars precede it; `ctx.highs(length)` (likewise opens, lows, closes, volumes) returns exactly the last `length` values up to and including the current bar, oldest first, and fails by panicking, never by returning other data, when fewer than `length` bars exist or `length` is 0.", "quantifier": "every provider, bar index, n and length", "why_tests_cant": "Boundary behaviour for every index/length pair.", "anchors": ["pace/src/core/context.rs: Context::high/low/close/volume/opens/highs/lows/closes/volumes", "pace/src/core/in_memory_data_provider.rs: get_*_for_range"]}
{"id": "C04", "title": "In-memory provider construction", "statement": "`InMemoryDataProvider::new`/`from_values` panic on an empty close series and otherwise give start tick 0 and end tick length-1, and each accessor returns the i-th element supplied (for `from_values`, the same element for open, high, low, close and volume, and no time).", "quantifier": "every list of values", "why_tests_cant": "All lengths, including the empty boundary.", "anchors": ["pace/src/core/in_memory_data_provider.rs: new, from_values, get_*"]}
{"id": "C05", "title": "WindowCache shows the last `length` pushed values", "statement": "After any sequence of pushes, `all()` is the last min(length, pushed) values oldest first, `is_filled()` holds iff at least `length` values were pushed, `first()` is the value pushed length-1 pushes ago once filled and None before, `last()` is the newest value, `get(i)` the value pushed i pushes ago, `size()` the total number pushed.", "quantifier": "every length, every push history, every i", "why_tests_cant": "Unbounded histories.", "anchors": ["pace/src/common/window_cache.rs: WindowCache"]}
{"id": "C06", "title": "IncrementalCache is a faithful log", "statement": "After any sequence of pushes `all()` is that sequence, `get(i)` the i-th newest, `first()`/`last()` its ends, `size()` its length, and the indexed accessors panic exactly when there is no such element.", "quantifier": "every push history and index", "why_tests_cant": "Unbounded histories.", "anchors": ["pace/src/common/incremental_cache.rs: IncrementalCache"]}
{"id": "C07", "title": "FixNan forward-fills gaps", "statement": "The output of FixNan at each bar is the most recent present value seen so far (including the current one), and None only while no value has been seen; Position returns 0,1,2,... .", "quantifier": "every input history", "why_tests_cant": "Snapshot tests run one recorded price series with one length; the claim is about every length and every input history, including gaps.", "anchors": ["pace/src/common/fixnan.rs: FixNan", "pace/src/common/position.rs: Position"]}
{"id": "C08", "title": "WindowValidator detects gaps in the window", "statement": "Called once per bar, WindowValidator returns true at a bar iff none of the last `length` inputs (or of all inputs so far, if fewer) was missing.", "quantifier": "every length>=1, every input history, every starting bar", "why_tests_cant": "Snapshot tests run one recorded price series with one length; the claim is about every length and every input history, including gaps.", "anchors": ["pace/src/common/window_validator.rs: WindowValidator::next"]}
{"id": "C09", "title": "Sma is the mean of the last `length` inputs", "statement": "The running Sma outputs a value at a bar iff the last `length` inputs all exist and are present; in exact arithmetic that value is their arithmetic mean, even after gaps and for any number of bars. Length 1 returns the input; length 0 is rejected. It never panics.", "quantifier": "every length>=1, every input history (with gaps), every starting bar", "why_tests_cant": "Snapshot tests run one recorded price series with one length; the claim is about every length and every input history, including gaps.", "anchors": ["pace/src/ta/simple_moving_average.rs: Sma"]}
{"id": "C10", "title": "Sum is the sum of the last `length` inputs", "statement": "The running Sum outputs a value at a bar iff the last `length` inputs all exist and are present; in exact arithmetic it is their sum. It never panics.", "quantifier": "every length>=1, every input history, every starting bar", "why_tests_cant": "Snapshot tests run one recorded price series with one length; the claim is about every length and every input history, including gaps.", "anchors": ["pace/src/ta/sum.rs: Sum"]}
{"id": "C11", "title": "Ema follows its recurrence, seeded by the first full mean", "statement": "For a fresh context Ema outputs nothing until the first bar whose last `length` inputs are all present, outputs their mean there, and from then on alpha*x + (1-alpha)*previous with alpha=2/(length+1); a missing input after the seed panics; length 1 returns the input.", "quantifier": "every length, alpha and input history", "why_tests_cant": "Snapshot tests run one recorded price series with one length; the claim is about every length and every input history, including gaps.", "anchors": ["pace/src/ta/exponential_moving_average.rs: Ema"]}
{"id": "C12", "title": "Rma is the Ema with alpha 1/length", "statement": "Rma produces exactly the outputs of the Ema recurrence with alpha = 1/length.", "quantifier": "every length and input history", "why_tests_cant": "Snapshot tests run one recorded price series with one length; the claim is about every length and every input history, including gaps.", "anchors": ["pace/src/ta/running_moving_average.rs: Rma"]}
{"id": "C13", "title": "Moving averages stay within the range of their inputs", "statement": "In exact arithmetic every Sma, Ema, Rma, Wma and Swma output lies between the smallest and the largest input it was computed from.", "quantifier": "every length and input history without gaps", "why_tests_cant": "A bound for every history.", "anchors": ["pace/src/ta/simple_moving_average.rs", "pace/src/ta/exponential_moving_average.rs", "pace/src/ta/running_moving_average.rs", "pace/src/ta/weighted_moving_average.rs", "pace/src/ta/symmetrically_weighted_moving_average.rs"]}
{"id": "C14", "title": "Wma weights", "statement": "Wma at a bar with a full gap-free window is the mean of the window weighted linearly, newest weight `length`, oldest weight 1; otherwise None; it never panics on a fresh context.", "quantifier": "every length and input history", "why_tests_cant": "Snapshot tests run one recorded price series with one length; the claim is about every length and every input history, including gaps.", "anchors": ["pace/src/ta/weighted_moving_average.rs: Wma"]}
{"id": "C15", "title": "Swma weights", "statement": "Swma is (x3 + 2 x2 + 2 x1 + x0)/6 over the last four inputs when all are present, None otherwise.", "quantifier": "every input history", "why_tests_cant": "Snapshot tests run one recorded price series with one length; the claim is about every length and every input history, including gaps.", "anchors": ["pace/src/ta/symmetrically_weighted_moving_average.rs: Swma"]}
{"id": "C16", "title": "Change is the difference to the value `length` bars ago", "statement": "Change outputs x[t]-x[t-length] whenever both are present, None otherwise.", "quantifier": "every length and input history", "why_tests_cant": "Snapshot tests run one recorded price series with one length; the claim is about every length and every input history, including gaps.", "anchors": ["pace/src/ta/change.rs: Change"]}
{"id": "C17", "title": "Roc is the percentage change over `length` bars", "statement": "Roc outputs 100*(x[t]-x[t-length])/x[t-length] when both are present and the old value is not 0, None otherwise.", "quantifier": "every length and input history", "why_tests_cant": "Snapshot tests run one recorded price series with one length; the claim is about every length and every input history, including gaps.", "anchors": ["pace/src/ta/rate_of_change.rs: Roc"]}
{"id": "C18", "title": "Highest/Lowest are the window extremum", "statement": "On a fresh context Highest/Lowest output None before bar length-1 and from then on the greatest/least present value among the last `length` inputs (None if all are missing): an element of the window that no other element exceeds, also for f64 data without NaN.", "quantifier": "every length and input history", "why_tests_cant": "Snapshot tests run one recorded price series with one length; the claim is about every length and every input history, including gaps.", "anchors": ["pace/src/ta/highest.rs: Highest", "pace/src/ta/lowest.rs: Lowest", "pace/src/ta/bars.rs: highest, lowest", "pace/src/statistics/math.rs: find_max_index, find_min_index"]}
{"id": "C19", "title": "HighestBars/LowestBars give the offset of the extremum", "statement": "HighestBars/LowestBars return -k where the extremum of the last `length` highs/lows is the bar k bars ago (the earliest such bar on ties), 0<=k<length; None before bar length-1.", "quantifier": "every provider, length and bar", "why_tests_cant": "Snapshot tests run one recorded price series with one length; the claim is about every length and every input history, including gaps.", "anchors": ["pace/src/ta/highest_bars.rs", "pace/src/ta/lowest_bars.rs", "pace/src/ta/bars.rs"]}
{"id": "C20", "title": "Stdev and Dev measure dispersion of the window", "statement": "For length>=2 Dev is the mean absolute deviation of the last `length` inputs from their mean and Stdev the (biased or sample) standard deviation, up to the documented 1e-10 snapping of tiny differences to zero; both are non-negative, defined exactly when the window is full and gap-free, and zero on a constant window.", "quantifier": "every length, input history and bias flag", "why_tests_cant": "Snapshot tests run one recorded price series with one length; the claim is about every length and every input history, including gaps.", "anchors": ["pace/src/ta/dev.rs: Dev", "pace/src/ta/stdev.rs: Stdev"]}
{"id": "C21", "title": "Percent rank counts", "statement": "Prank is the percentage of the previous `length` values that are <= the current one; between 0 and 100; None when the current value is missing or fewer than `length` previous bars exist.", "quantifier": "every length and input history, in f64", "why_tests_cant": "Snapshot tests run one recorded price series with one length; the claim is about every length and every input history, including gaps.", "anchors": ["pace/src/ta/percent_rank.rs: Prank"]}
{"id": "C22", "title": "RSI formula, range and direction", "statement": "Rsi is 100-100/(1+avgUp/avgDown) with Rma-smoothed gains and losses of consecutive inputs; for gap-free f64 input it is within [0,100] (or NaN when nothing moved); first value at bar `length`; never panics on gap-free input; 100 on a strictly rising and 0 on a strictly falling series in exact arithmetic.", "quantifier": "every length>=2 and every gap-free input history", "why_tests_cant": "Range must hold for every f64 history.", "anchors": ["pace/src/ta/relative_strength_index.rs: Rsi"]}
{"id": "C23", "title": "Stochastic", "statement": "Stoch is 100*(v-lowest low)/(highest high-lowest low) over the last `length` bars, repeats the previous output when that range is zero, and lies in [0,100] in exact arithmetic when the value lies between the bar's low and high.", "quantifier": "every length and input history", "why_tests_cant": "Snapshot tests run one recorded price series with one length; the claim is about every length and every input history, including gaps.", "anchors": ["pace/src/ta/stoch.rs: Stoch, stoch"]}
{"id": "C24", "title": "True range and Atr", "statement": "Tr is max(h-l, |h-pc|, |l-pc|) (h-l or None on the first bar according to the flag), at least h-l and, for f64 data with h>=l, never negative; Atr is its Rma; with length 1 it equals Tr.", "quantifier": "every provider and bar", "why_tests_cant": "Snapshot tests run one recorded price series with one length; the claim is about every length and every input history, including gaps.", "anchors": ["pace/src/ta/true_range.rs: Tr", "pace/src/ta/average_true_range.rs: Atr"]}
{"id": "C25", "title": "Cross detectors fire exactly at crossings", "statement": "Cross/CrossOver/CrossUnder and their threshold versions report Over at a bar iff all four current/previous values are present, now a>b and previously a<=b; Under symmetrically; never both; between two Over reports on gap-free comparable data there is an Under-side bar; the three variants agree with each other.", "quantifier": "every pair of input histories", "why_tests_cant": "Snapshot tests run one recorded price series with one length; the claim is about every length and every input history, including gaps.", "anchors": ["pace/src/ta/cross.rs", "pace/src/ta/cross_over.rs", "pace/src/ta/cross_under.rs", "pace/src/ta/cross_threshold.rs", "pace/src/ta/cross_over_threshold.rs", "pace/src/ta/cross_under_threshold.rs"]}
{"id": "C26", "title": "No look-ahead", "statement": "The outputs of every indicator up to bar i depend only on data up to bar i: replacing all later bars, or truncating the series there, changes no output up to i.", "quantifier": "every indicator, configuration, provider and cut-off bar", "why_tests_cant": "Quantifies over all pairs of data sets agreeing on a prefix.", "anchors": ["pace/src/core/context.rs", "pace/src/ta/average_true_range.rs: Atr", "pace/src/ta/bars.rs", "pace/src/ta/change.rs: Change", "pace/src/ta/cross.rs: Cross", "pace/src/ta/cross_over.rs: CrossOver", "pace/src/ta/cross_over_threshold.rs: CrossOverThreshold", "pace/src/ta/cross_threshold.rs: CrossThreshold", "pace/src/ta/cross_under.rs: CrossUnder", "pace/src/ta/cross_under_threshold.rs: CrossUnderThreshold", "pace/src/ta/dev.rs: Dev", "pace/src/ta/exponential_moving_average.rs: Ema", "pace/src/ta/highest.rs: Highest", "pace/src/ta/highest_bars.rs: HighestBars", "pace/src/ta/lowest.rs: Lowest", "pace/src/ta/lowest_bars.rs: LowestBars", "pace/src/ta/moving_average.rs: Ma", "pace/src/ta/percent_rank.rs: Prank", "pace/src/ta/rate_of_change.rs: Roc", "pace/src/ta/relative_strength_index.rs: Rsi", "pace/src/ta/running_moving_average.rs: Rma", "pace/src/ta/simple_moving_average.rs: Sma", "pace/src/ta/stdev.rs: Stdev", "pace/src/ta/stoch.rs: Stoch", "pace/src/ta/sum.rs: Sum", "pace/src/ta/symmetrically_weighted_moving_average.rs: Swma", "pace/src/ta/true_range.rs: Tr", "pace/src/ta/weighted_moving_average.rs: Wma", "pace/src/content/aroon.rs: Aroon", "pace/src/content/awesome_oscillator.rs: AwesomeOscillator", "pace/src/content/balance_of_power.rs: BalanceOfPower", "pace/src/content/bollinger_bands_pb.rs: BollingerBandsPercentB", "pace/src/content/bollinger_bands_width.rs: BollingerBandsWidth", "pace/src/content/chaikin_money_flow.rs: ChaikinMoneyFlow", "pace/src/content/chande_kroll_stop.rs: ChandeKrollStop", "pace/src/content/chande_momentum_oscillator.rs: ChandeMomentumOscillator", "pace/src/content/choppiness_index.rs: ChoppinessIndex", "pace/src/content/commodity_channel_index.rs: CommodityChannelIndex", "pace/src/content/connors_relative_strength_index.rs: ConnorsRelativeStrengthIndex", "pace/src/content/coppock_curve.rs: CoppockCurve", "pace/src/content/directional_movement_index.rs: DirectionalMovementIndex", "pace/src/content/donchian_channels.rs: DonchianChannels", "pace/src/content/macd.rs: Macd", "pace/src/content/price_oscillator.rs: PriceOscillator", "pace/src/content/relative_strength_index.rs: RelativeStrengthIndex", "pace/src/content/relative_vigor_index.rs: RelativeVigorIndex", "pace/src/content/relative_volatility_index.rs: RelativeVolatilityIndex", "pace/src/content/stoch_relative_strength_index.rs: StochRelativeStrengthIndex", "pace/src/content/ultimate_oscillator.rs: UltimateOscillator", "pace/src/content/volume_oscillator.rs: VolumeOscillator", "pace/src/content/vortex.rs: Vortex", "pace/src/content/williams_percent_range.rs: WilliamsPercentRank"]}
{"id": "C27", "title": "Boxed components are transparent", "statement": "A moving average selected through `Ma::new(kind, length)` and any boxed source or component produces exactly the outputs of the concrete component it wraps.", "quantifier": "every kind, length and input history", "why_tests_cant": "Equality of all output histories.", "anchors": ["pace/src/ta/moving_average.rs: Ma", "pace/src/core/incremental.rs: to_box"]}
{"id": "C28", "title": "At most one open trade; history is never rewritten", "statement": "After any sequence of signals, all trades but the last are closed, at most the last is open, closed trades have entry and exit tick and price with entry tick <= exit tick and pnl = (exit-entry)*size*sign, open trades have entry but no exit, consecutive trades do not overlap, and a later step never changes or removes a closed trade.", "quantifier": "every configuration, price series and signal history", "why_tests_cant": "State-machine invariant over unbounded signal sequences.", "anchors": ["pace/src/strategy/strategy.rs: Strategy::next", "pace/src/strategy/trade.rs: Trade"]}
{"id": "C29", "title": "Orders fill at the documented bar and price", "statement": "With on_bar_close=false a signal given at a bar takes effect at the next bar at its open price (and a signal on the last bar never fills); with on_bar_close=true it takes effect at the same bar at its close price. The trade list after any history is the one obtained by applying the fill rule to those (tick, price, direction) orders one by one.", "quantifier": "every signal history and price series", "why_tests_cant": "Timing claim over all histories.", "anchors": ["pace/src/strategy/strategy.rs: Strategy::next"]}
{"id": "C30", "title": "Trade counters and P&L totals equal what the trade list says", "statement": "At every bar, net_profit is the sum of pnl of closed trades, closed_trades their number, winning/losing the numbers with pnl>0/<0, gross_profit and gross_loss the sums of the winning/losing magnitudes, long/short net the per-direction sums; in exact arithmetic gross_profit - gross_loss = net_profit = long_net + short_net.", "quantifier": "every configuration, price series and signal history", "why_tests_cant": "Running totals over unbounded histories.", "anchors": ["pace/src/strategy/strategy.rs: Strategy::next, StrategyMetrics"]}
{"id": "C31", "title": "Equity identity", "statement": "At every bar equity = initial capital + net_profit + open_profit, and open_profit is the unrealised P&L of the open trade at the bar's close, 0 when flat.", "quantifier": "every configuration, price series and signal history", "why_tests_cant": "Invariant over histories.", "anchors": ["pace/src/strategy/strategy.rs: Strategy::next"]}
{"id": "C32", "title": "Continuous mode is always in the market and alternates", "statement": "With continuous=true, from the first fill on exactly one trade is open, it has the direction of the most recent filled signal, consecutive trades have opposite directions, and each trade is opened at the tick and price at which the previous one closed.", "quantifier": "every price series and signal history", "why_tests_cant": "Invariant over histories.", "anchors": ["pace/src/strategy/strategy.rs: Strategy::next"]}
{"id": "C33", "title": "Non-continuous mode: opposite signal closes, next signal opens", "statement": "With continuous=false, a signal against the open trade closes it without opening another; a signal in the direction of the open trade does nothing; a signal while flat opens a trade in its direction.", "quantifier": "every price series and signal history", "why_tests_cant": "All state/signal combinations at any point of any history.", "anchors": ["pace/src/strategy/strategy.rs: Strategy::next"]}
{"id": "C34", "title": "Entry/exit events report exactly what happened at the bar", "statement": "on_exit is set at a bar iff a trade was closed at that bar and then carries that closed trade; on_entry iff a trade was opened and carries it; neither survives to the next bar.", "quantifier": "every signal history", "why_tests_cant": "All histories.", "anchors": ["pace/src/strategy/strategy.rs: Strategy::next, StrategyOnTradeEntryEvent, StrategyOnTradeExitEvent"]}
{"id": "C35", "title": "Position sizing", "statement": "With buy_with_equity=false every trade has size 1; with true the size is equity/price at entry, 0 when equity or price is not positive; a long's cost then equals the equity in exact arithmetic, and the P&L of a trade is antisymmetric in direction and zero at its entry price.", "quantifier": "every price, equity and history", "why_tests_cant": "All real prices.", "anchors": ["pace/src/strategy/trade.rs: fill_size, trade_pnl", "pace/src/strategy/strategy.rs: Strategy::next"]}
{"id": "C36", "title": "Encodings round-trip", "statement": "Timeframe and trade-direction encodings round-trip in both directions on their domain, reject or map to None everything else, and get_opposite is an involution without fixed point.", "quantifier": "every value of the encoded domain (every usize, every f64)", "why_tests_cant": "The codomain side ranges over all usize / all f64 values.", "anchors": ["pace/src/core/timeframe.rs", "pace/src/strategy/trade.rs: trade_direction_to_f64, trade_direction_from_f64, TradeDirection::get_opposite"]}
{"id": "C37", "title": "EquityMetrics tracks extremes", "statement": "After any run, net_equity is capital + net profit as of the last exit, net_equity_min/max and equity_min/max are the running minimum and maximum over the run including the start, and trade_equity_min/max bracket net equity by the open trade's worst/best P&L of the bar.", "quantifier": "every run of a strategy", "why_tests_cant": "Running extrema over unbounded histories.", "anchors": ["pace/src/strategy/metrics/equity_metrics.rs: EquityMetrics::next"]}
{"id": "C38", "title": "Max drawdown and run-up never decrease", "statement": "TradingViewMetrics.max_drawdown and max_run_up are non-decreasing from 0 and never NaN over any run in f64, equal the running maximum of the per-bar excursion, and the history vectors grow by one per bar (equity) or one per closed trade (net equity, drawdown).", "quantifier": "every run of a strategy", "why_tests_cant": "Monotonicity along every run.", "anchors": ["pace/src/strategy/metrics/tradingview_metrics.rs: TradingViewMetrics::next"]}
{"id": "C39", "title": "TradingView metrics mirror the strategy totals", "statement": "After each bar, net/gross profit/loss, counts, percent profitable (in [0,1]), averages and ratios equal the textbook formulas on the strategy's totals, and are 0 when their denominator is 0.", "quantifier": "every run of a strategy", "why_tests_cant": "All totals.", "anchors": ["pace/src/strategy/metrics/tradingview_metrics.rs", "pace/src/strategy/metrics/common.rs"]}
{"id": "C40", "title": "Cobra metrics", "statement": "equity_curve_max_dd starts at 0, never increases and is the running minimum of equity/peak - 1; trades, profit factor and percent profitable are those of the last exit; bars before the start year contribute nothing to Sharpe, Sortino and Omega.", "quantifier": "every run of a strategy and start year", "why_tests_cant": "Running extremum over all runs.", "anchors": ["pace/src/strategy/metrics/cobra_metrics.rs: CobraMetrics::next"]}
{"id": "C41", "title": "Incremental statistics equal batch statistics", "statement": "Feeding values one by one, Mean, Var and Stdev (slow mode) output after n values exactly mean, var and stdev of the n values; in exact arithmetic Welford's algorithm outputs the sample variance (n-1 denominator) of them; variances are non-negative and 0 for one value.", "quantifier": "every sequence of values", "why_tests_cant": "Equivalence of algorithms for all sequences.", "anchors": ["pace/src/statistics/mean.rs", "pace/src/statistics/var.rs", "pace/src/statistics/stdev.rs", "pace/src/statistics/welfords_var.rs", "pace/src/statistics/common.rs"]}
{"id": "C42", "title": "Fast and slow variance agree", "statement": "Var with fast mode on and off outputs the same variance.", "quantifier": "every sequence of values", "why_tests_cant": "Equivalence for all sequences.", "anchors": ["pace/src/statistics/var.rs: Var::build"]}
{"id": "C43", "title": "Clipping and scaling stay in range", "statement": "clip_value returns a value in [min,max] and the input itself if it is there already; scale_value_up/down/centered return values in [0,1] for all f64 arguments; up is 0 at or below its threshold and 1 at its maximum, down is 0 at or above its threshold and 1 at its minimum, centered is 1 at its centre, and in exact arithmetic up is non-decreasing and down non-increasing in the input.", "quantifier": "every f64 argument (NaN excepted where stated)", "why_tests_cant": "All f64 values.", "anchors": ["pace/src/statistics/normalization.rs"]}
{"id": "C44", "title": "Snapshot comparison accepts exactly equal-within-tolerance series", "statement": "ArraySnapshot::assert returns normally iff both series have the same length and agree element-wise: missing where missing, equal for booleans, integers and directions, and numerically within 1e-5 in every component (for pairs of optional numbers see C77); a NaN never matches; in debug mode only a length mismatch fails.", "quantifier": "every pair of series", "why_tests_cant": "The comparator itself is what tests rely on.", "anchors": ["pace/src/testing/array_snapshot.rs", "pace/src/testing/comparison.rs"]}
{"id": "C45", "title": "Pine helper semantics", "statement": "ps_add/diff/div/max/min/abs/nz propagate missing values, ps_div gives None for a zero divisor, ps_nz gives 0 for None; results otherwise are the plain operation.", "quantifier": "every pair of optional f64 values", "why_tests_cant": "All f64 values.", "anchors": ["pace/src/pinescript/common.rs"]}
{"id": "C46", "title": "Src selects the documented price", "statement": "Src of each kind returns at each bar exactly open, high, low, close, volume, (o+h+l+c)/4, (h+l+c)/3 or (h+l)/2 of the current bar; the averaged kinds panic on a missing price; hl2, hlc3 and ohlc4 lie between low and high.", "quantifier": "every provider and bar", "why_tests_cant": "All bars.", "anchors": ["pace/src/common/src.rs: Src"]}
{"id": "C47", "title": "Aroon", "statement": "Aroon up/down are 100*(length-k)/length where k is the age of the window's highest high / lowest low, hence in (0,100]; up is 100 exactly when the current bar is the strict maximum; None before bar length-1.", "quantifier": "every provider, length and bar", "why_tests_cant": "Snapshot tests run one recorded price series with one length; the claim is about every length and every input history, including gaps.", "anchors": ["pace/src/content/aroon.rs: Aroon"]}
{"id": "C48", "title": "Aroon strategy", "statement": "AroonStrategy emits Long (Short) only at a bar where up (down) is 100 with the other below 50 and a cross of the two lines has happened since the last emission (or start); at most one emission per cross.", "quantifier": "every history of Aroon values", "why_tests_cant": "All histories.", "anchors": ["pace/src/content/aroon.rs: AroonStrategy"]}
{"id": "C49", "title": "Threshold strategies signal exactly at threshold crossings", "statement": "Every threshold strategy emits Long at a bar iff the indicator crosses above its lower (oversold) threshold there, Short iff it crosses below its upper (overbought) threshold and not Long, nothing otherwise; Williams %R uses the thresholds the other way round and Macd uses 0.", "quantifier": "every indicator history and thresholds", "why_tests_cant": "All histories.", "anchors": ["pace/src/content/aroon.rs: AroonStrategy", "pace/src/content/awesome_oscillator.rs: AwesomeOscillatorStrategy", "pace/src/content/balance_of_power.rs: BalanceOfPowerStrategy", "pace/src/content/bollinger_bands_pb.rs: BollingerBandsPercentBStrategy", "pace/src/content/chaikin_money_flow.rs: ChaikinMoneyFlowStrategy", "pace/src/content/chande_momentum_oscillator.rs: ChandeMomentumOscillatorStrategy", "pace/src/content/commodity_channel_index.rs: CommodityChannelIndexStrategy", "pace/src/content/connors_relative_strength_index.rs: ConnorsRelativeStrengthIndexStrategy", "pace/src/content/coppock_curve.rs: CoppockCurveStrategy", "pace/src/content/directional_movement_index.rs", "pace/src/content/macd.rs: MacdStrategy", "pace/src/content/price_oscillator.rs: PriceOscillatorStrategy", "pace/src/content/relative_strength_index.rs: RelativeStrengthIndexStrategy", "pace/src/content/relative_vigor_index.rs: RelativeVigorIndexStrategy", "pace/src/content/relative_volatility_index.rs: RelativeVolatilityIndexStrategy", "pace/src/content/stoch_relative_strength_index.rs", "pace/src/content/volume_oscillator.rs: VolumeOscillatorStrategy", "pace/src/content/vortex.rs: VortexStrategy", "pace/src/content/williams_percent_range.rs: WilliamsPercentRankStrategy"]}
{"id": "C50", "title": "Line-cross strategies", "statement": "Vortex and Relative Vigor strategies emit Long/Short exactly at crossings of their two lines; the DMI strategy does so only when ADX exceeds the strong-trend threshold.", "quantifier": "every history", "why_tests_cant": "All histories.", "anchors": ["pace/src/content/vortex.rs", "pace/src/content/relative_vigor_index.rs", "pace/src/content/directional_movement_index.rs"]}
{"id": "C51", "title": "Donchian channels", "statement": "Upper/lower are the highest high/lowest low of the last `length` bars, basis their midpoint, lower<=basis<=upper whenever highs are at least lows (exact arithmetic); upper never below the current high.", "quantifier": "every provider, length and bar", "why_tests_cant": "Snapshot tests run one recorded price series with one length; the claim is about every length and every input history, including gaps.", "anchors": ["pace/src/content/donchian_channels.rs"]}
{"id": "C52", "title": "Williams %R", "statement": "Equals 100*(src-highest high)/(highest high-lowest low) over the window, None when the range is zero or not full; in [-100,0] when src lies between the bar's low and high (exact arithmetic).", "quantifier": "every provider and length", "why_tests_cant": "Snapshot tests run one recorded price series with one length; the claim is about every length and every input history, including gaps.", "anchors": ["pace/src/content/williams_percent_range.rs"]}
{"id": "C53", "title": "Balance of power", "statement": "(close-open)/(high-low), None when high=low or a price is missing; in [-1,1] for consistent bars, also in f64.", "quantifier": "every provider and bar", "why_tests_cant": "All f64 prices.", "anchors": ["pace/src/content/balance_of_power.rs"]}
{"id": "C54", "title": "Chaikin money flow", "statement": "Sum of money-flow volume over sum of volume for the window; in [-1,1] for consistent bars with non-negative volume (exact arithmetic); None when the volume sum is 0 or the window has gaps.", "quantifier": "every provider and length", "why_tests_cant": "Snapshot tests run one recorded price series with one length; the claim is about every length and every input history, including gaps.", "anchors": ["pace/src/content/chaikin_money_flow.rs"]}
{"id": "C55", "title": "Chande momentum oscillator", "statement": "100*(up-down)/(up+down) over the sums of gains and losses of the last `length` changes; in [-100,100] (exact arithmetic), None when nothing moved.", "quantifier": "every source history and length", "why_tests_cant": "Snapshot tests run one recorded price series with one length; the claim is about every length and every input history, including gaps.", "anchors": ["pace/src/content/chande_momentum_oscillator.rs"]}
{"id": "C56", "title": "Ultimate oscillator", "statement": "100*(4 fast + 2 mid + slow)/7 of buying-pressure/true-range sums over the three windows; in [0,100] for consistent bars (exact arithmetic).", "quantifier": "every provider and lengths", "why_tests_cant": "Snapshot tests run one recorded price series with one length; the claim is about every length and every input history, including gaps.", "anchors": ["pace/src/content/ultimate_oscillator.rs"]}
{"id": "C57", "title": "Directional movement index", "statement": "+DI/-DI/ADX follow their definition from smoothed directional movement and true range; +DI and -DI are non-negative and ADX is in [0,100] in exact arithmetic whenever defined and finite; at most one of +DM, -DM is non-zero at a bar.", "quantifier": "every provider and lengths", "why_tests_cant": "Snapshot tests run one recorded price series with one length; the claim is about every length and every input history, including gaps.", "anchors": ["pace/src/content/directional_movement_index.rs"]}
{"id": "C58", "title": "Difference oscillators", "statement": "Macd, Awesome, Price and Volume oscillators output exactly the documented combination of their short and long moving averages of their sources (and Macd's signal line the signal average of the macd line), with any source and average components, at every bar.", "quantifier": "every source and moving-average component and every run", "why_tests_cant": "Ranges over all component behaviours.", "anchors": ["pace/src/content/macd.rs", "pace/src/content/awesome_oscillator.rs", "pace/src/content/price_oscillator.rs", "pace/src/content/volume_oscillator.rs"]}
{"id": "C59", "title": "Bollinger %B and width", "statement": "%B is (src-lower)/(upper-lower) and width (upper-lower)/basis for bands basis +- mult*stdev of the same window; width is 2*mult*stdev/basis, %B is 1/2 when src equals the mean (exact arithmetic); None on zero-width bands / zero basis.", "quantifier": "every source history and parameters", "why_tests_cant": "Snapshot tests run one recorded price series with one length; the claim is about every length and every input history, including gaps.", "anchors": ["pace/src/content/bollinger_bands_pb.rs", "pace/src/content/bollinger_bands_width.rs"]}
{"id": "C60", "title": "Commodity channel index", "statement": "(src-sma)/(0.015*mean deviation) over one window, None when the deviation is 0.", "quantifier": "every source history and length", "why_tests_cant": "Snapshot tests run one recorded price series with one length; the claim is about every length and every input history, including gaps.", "anchors": ["pace/src/content/commodity_channel_index.rs"]}
{"id": "C61", "title": "Connors RSI", "statement": "Mean of Rsi(src), Rsi(up/down streak) and Prank(Roc(src,1)); the streak counts consecutive rises (positive) or falls (negative) and is 0 on equality; the result lies in [0,100] in exact arithmetic on gap-free input.", "quantifier": "every source history and lengths", "why_tests_cant": "Snapshot tests run one recorded price series with one length; the claim is about every length and every input history, including gaps.", "anchors": ["pace/src/content/connors_relative_strength_index.rs"]}
{"id": "C62", "title": "Stochastic RSI", "statement": "k is the Sma of the Stoch of the Rsi, d the Sma of k; both in [0,100] in exact arithmetic.", "quantifier": "every source history and lengths", "why_tests_cant": "Snapshot tests run one recorded price series with one length; the claim is about every length and every input history, including gaps.", "anchors": ["pace/src/content/stoch_relative_strength_index.rs"]}
{"id": "C63", "title": "Relative vigor index", "statement": "rvi is Sum(Swma(close-open))/Sum(Swma(high-low)), sig its Swma; in [-1,1] for consistent bars (exact arithmetic).", "quantifier": "every provider and length", "why_tests_cant": "Snapshot tests run one recorded price series with one length; the claim is about every length and every input history, including gaps.", "anchors": ["pace/src/content/relative_vigor_index.rs"]}
{"id": "C64", "title": "Relative volatility index", "statement": "100*up/(up+down) with up/down the Ema of stdev on rising/falling bars; in [0,100] in exact arithmetic; a run over gap-free data never panics when the averaging length is 1 or at least the deviation length minus 2 (the default 10/14 included), and for every other pair of lengths some gap-free data makes it panic.", "quantifier": "every source history and lengths", "why_tests_cant": "Snapshot tests run one recorded price series with one length; the claim is about every length and every input history, including gaps.", "anchors": ["pace/src/content/relative_volatility_index.rs"]}
{"id": "C65", "title": "Chande Kroll stop", "statement": "First stops are highest high - x*atr and lowest low + x*atr over p bars; stop_short/stop_long are the highest/lowest of those over q bars.", "quantifier": "every provider and parameters", "why_tests_cant": "Snapshot tests run one recorded price series with one length; the claim is about every length and every input history, including gaps.", "anchors": ["pace/src/content/chande_kroll_stop.rs"]}
{"id": "C66", "title": "Choppiness index", "statement": "100*log10(sum of true ranges/(highest high-lowest low))/log10(length); for consistent bars the ratio is >=1 so the value is >=0 (exact arithmetic).", "quantifier": "every provider and length", "why_tests_cant": "Snapshot tests run one recorded price series with one length; the claim is about every length and every input history, including gaps.", "anchors": ["pace/src/content/choppiness_index.rs"]}
{"id": "C67", "title": "Vortex", "statement": "+VI/-VI are Sum|h-prev l| / Sum TR and Sum|l-prev h| / Sum TR; non-negative.", "quantifier": "every provider and length", "why_tests_cant": "Snapshot tests run one recorded price series with one length; the claim is about every length and every input history, including gaps.", "anchors": ["pace/src/content/vortex.rs"]}
{"id": "C68", "title": "Coppock curve", "statement": "Wma of the sum of two Rocs of the source.", "quantifier": "every source history and lengths", "why_tests_cant": "Snapshot tests run one recorded price series with one length; the claim is about every length and every input history, including gaps.", "anchors": ["pace/src/content/coppock_curve.rs"]}
{"id": "C69", "title": "No panic on gap-free data", "statement": "Every indicator with a valid configuration, run over gap-free OHLCV data of any length from a fresh context, never panics.", "quantifier": "every indicator, configuration and gap-free data set", "why_tests_cant": "Panic-freedom over all inputs.", "anchors": ["pace/src/ta/average_true_range.rs: Atr", "pace/src/ta/bars.rs", "pace/src/ta/change.rs: Change", "pace/src/ta/cross.rs: Cross", "pace/src/ta/cross_over.rs: CrossOver", "pace/src/ta/cross_over_threshold.rs: CrossOverThreshold", "pace/src/ta/cross_threshold.rs: CrossThreshold", "pace/src/ta/cross_under.rs: CrossUnder", "pace/src/ta/cross_under_threshold.rs: CrossUnderThreshold", "pace/src/ta/dev.rs: Dev", "pace/src/ta/exponential_moving_average.rs: Ema", "pace/src/ta/highest.rs: Highest", "pace/src/ta/highest_bars.rs: HighestBars", "pace/src/ta/lowest.rs: Lowest", "pace/src/ta/lowest_bars.rs: LowestBars", "pace/src/ta/moving_average.rs: Ma", "pace/src/ta/percent_rank.rs: Prank", "pace/src/ta/rate_of_change.rs: Roc", "pace/src/ta/relative_strength_index.rs: Rsi", "pace/src/ta/running_moving_average.rs: Rma", "pace/src/ta/simple_moving_average.rs: Sma", "pace/src/ta/stdev.rs: Stdev", "pace/src/ta/stoch.rs: Stoch", "pace/src/ta/sum.rs: Sum", "pace/src/ta/symmetrically_weighted_moving_average.rs: Swma", "pace/src/ta/true_range.rs: Tr", "pace/src/ta/weighted_moving_average.rs: Wma", "pace/src/content/aroon.rs: Aroon", "pace/src/content/awesome_oscillator.rs: AwesomeOscillator", "pace/src/content/balance_of_power.rs: BalanceOfPower", "pace/src/content/bollinger_bands_pb.rs: BollingerBandsPercentB", "pace/src/content/bollinger_bands_width.rs: BollingerBandsWidth", "pace/src/content/chaikin_money_flow.rs: ChaikinMoneyFlow", "pace/src/content/chande_kroll_stop.rs: ChandeKrollStop", "pace/src/content/chande_momentum_oscillator.rs: ChandeMomentumOscillator", "pace/src/content/choppiness_index.rs: ChoppinessIndex", "pace/src/content/commodity_channel_index.rs: CommodityChannelIndex", "pace/src/content/connors_relative_strength_index.rs: ConnorsRelativeStrengthIndex", "pace/src/content/coppock_curve.rs: CoppockCurve", "pace/src/content/directional_movement_index.rs: DirectionalMovementIndex", "pace/src/content/donchian_channels.rs: DonchianChannels", "pace/src/content/macd.rs: Macd", "pace/src/content/price_oscillator.rs: PriceOscillator", "pace/src/content/relative_strength_index.rs: RelativeStrengthIndex", "pace/src/content/relative_vigor_index.rs: RelativeVigorIndex", "pace/src/content/relative_volatility_index.rs: RelativeVolatilityIndex", "pace/src/content/stoch_relative_strength_index.rs: StochRelativeStrengthIndex", "pace/src/content/ultimate_oscillator.rs: UltimateOscillator", "pace/src/content/volume_oscillator.rs: VolumeOscillator", "pace/src/content/vortex.rs: Vortex", "pace/src/content/williams_percent_range.rs: WilliamsPercentRank"]}
{"id": "C70", "title": "Bad values do not outlive the window", "statement": "Once an infinite or NaN input has left the window of a windowed component (Sma, Sum, Highest, Lowest), its outputs are again those of the window's values.", "quantifier": "every input history in f64", "why_tests_cant": "f64 corner cases at any position of the history.", "anchors": ["pace/src/ta/sum.rs", "pace/src/ta/simple_moving_average.rs", "pace/src/ta/highest.rs"]}
{"id": "C71", "title": "Windowed components started mid-series wait for a full window", "statement": "With a provider whose start tick is greater than 0, windowed components output nothing until `length` values have been fed.", "quantifier": "every start tick and length", "why_tests_cant": "Start ticks other than 0 are never tested.", "anchors": ["pace/src/core/context.rs: Bar::at_length", "pace/src/ta/highest.rs", "pace/src/ta/weighted_moving_average.rs", "pace/src/ta/percent_rank.rs"]}
{"id": "C72", "title": "Returns statistics", "statement": "Returns reports at each step the change since the previous value, with its running mean and standard deviation.", "quantifier": "every sequence of values", "why_tests_cant": "All sequences.", "anchors": ["pace/src/strategy/metrics/returns.rs: Returns::next"]}
{"id": "C73", "title": "Calendar year of a bar", "statement": "The start-year filter compares the Gregorian calendar year of the bar's timestamp: a bar is skipped iff its time lies before January 1st of the start year.", "quantifier": "every timestamp and start year", "why_tests_cant": "All timestamps, including leap-year boundaries.", "anchors": ["pace/src/strategy/metrics/cobra_metrics.rs: CobraMetrics::next", "pace/src/core/context.rs: Bar::datetime"]}
{"id": "C74", "title": "Invariance under scaling and shifting of prices", "statement": "In exact arithmetic multiplying all prices by a positive constant leaves Rsi, Stoch, Williams %R, Cmo, Aroon and Balance of Power unchanged, and scales Sma, Ema, Sum, Highest, Atr by that constant; adding a constant leaves Rsi, Stoch and Tr unchanged.", "quantifier": "every constant and history", "why_tests_cant": "Metamorphic relation over all histories.", "anchors": ["pace/src/ta/average_true_range.rs: Atr", "pace/src/ta/bars.rs", "pace/src/ta/change.rs: Change", "pace/src/ta/cross.rs: Cross", "pace/src/ta/cross_over.rs: CrossOver", "pace/src/ta/cross_over_threshold.rs: CrossOverThreshold", "pace/src/ta/cross_threshold.rs: CrossThreshold", "pace/src/ta/cross_under.rs: CrossUnder", "pace/src/ta/cross_under_threshold.rs: CrossUnderThreshold", "pace/src/ta/dev.rs: Dev", "pace/src/ta/exponential_moving_average.rs: Ema", "pace/src/ta/highest.rs: Highest", "pace/src/ta/highest_bars.rs: HighestBars", "pace/src/ta/lowest.rs: Lowest", "pace/src/ta/lowest_bars.rs: LowestBars", "pace/src/ta/moving_average.rs: Ma", "pace/src/ta/percent_rank.rs: Prank", "pace/src/ta/rate_of_change.rs: Roc", "pace/src/ta/relative_strength_index.rs: Rsi", "pace/src/ta/running_moving_average.rs: Rma", "pace/src/ta/simple_moving_average.rs: Sma", "pace/src/ta/stdev.rs: Stdev", "pace/src/ta/stoch.rs: Stoch", "pace/src/ta/sum.rs: Sum", "pace/src/ta/symmetrically_weighted_moving_average.rs: Swma", "pace/src/ta/true_range.rs: Tr", "pace/src/ta/weighted_moving_average.rs: Wma", "pace/src/content/aroon.rs: Aroon", "pace/src/content/awesome_oscillator.rs: AwesomeOscillator", "pace/src/content/balance_of_power.rs: BalanceOfPower", "pace/src/content/bollinger_bands_pb.rs: BollingerBandsPercentB", "pace/src/content/bollinger_bands_width.rs: BollingerBandsWidth", "pace/src/content/chaikin_money_flow.rs: ChaikinMoneyFlow", "pace/src/content/chande_kroll_stop.rs: ChandeKrollStop", "pace/src/content/chande_momentum_oscillator.rs: ChandeMomentumOscillator", "pace/src/content/choppiness_index.rs: ChoppinessIndex", "pace/src/content/commodity_channel_index.rs: CommodityChannelIndex", "pace/src/content/connors_relative_strength_index.rs: ConnorsRelativeStrengthIndex", "pace/src/content/coppock_curve.rs: CoppockCurve", "pace/src/content/directional_movement_index.rs: DirectionalMovementIndex", "pace/src/content/donchian_channels.rs: DonchianChannels", "pace/src/content/macd.rs: Macd", "pace/src/content/price_oscillator.rs: PriceOscillator", "pace/src/content/relative_strength_index.rs: RelativeStrengthIndex", "pace/src/content/relative_vigor_index.rs: RelativeVigorIndex", "pace/src/content/relative_volatility_index.rs: RelativeVolatilityIndex", "pace/src/content/stoch_relative_strength_index.rs: StochRelativeStrengthIndex", "pace/src/content/ultimate_oscillator.rs: UltimateOscillator", "pace/src/content/volume_oscillator.rs: VolumeOscillator", "pace/src/content/vortex.rs: Vortex", "pace/src/content/williams_percent_range.rs: WilliamsPercentRank"]}
{"id": "C75", "title": "Data-frame cells: NaN means missing", "statement": "Reading a numeric column, cell i is None iff the cell is null or NaN, and otherwise its value; trade-direction columns map 1 to Long, -1 to Short, everything else to None; writing a direction and reading it back gives it back.", "quantifier": "every column of f64 cells", "why_tests_cant": "All f64 values.", "anchors": ["pace/src/polars/series.rs: to_f64, to_trade_dir", "pace/src/polars/dataframe.rs: merge_two_columns, merge_three_columns, merge_four_columns"]}
{"id": "C76", "title": "Min-max scaling maps the range ends to -1 and 1", "statement": "scale_value_min_max(value, min, max) maps min to -1, max to 1 and is affine in between, for every min < max.", "quantifier": "every value and every min < max", "why_tests_cant": "All f64 values.", "anchors": ["pace/src/statistics/normalization.rs: scale_value_min_max"]}
{"id": "C77", "title": "Snapshot comparison of pairs checks both components", "statement": "ArraySnapshot over (Option<f64>, Option<f64>) accepts two series only if both components agree at every position.", "quantifier": "every pair of series", "why_tests_cant": "The comparator itself is what tests rely on; a comparator that accepts too much makes tests pass.", "anchors": ["pace/src/testing/array_snapshot.rs: impl ArraySnapshot<Option<(Option<f64>, Option<f64>)>>"]}
{"id": "C78", "title": "Context metadata and bar predicates", "statement": "A new context stands on the provider's start tick with first/last/bar count fixed by the provider; iterating changes none of them; is_up holds iff close >= open (it panics when either is missing); at_length(n) holds iff the absolute tick is at least n-1 (n >= 1; n = 0 panics).", "quantifier": "every provider and tick", "why_tests_cant": "All providers and positions.", "anchors": ["pace/src/core/context.rs: Context::new, Bar"]}
{"id": "C79", "title": "No signals, no trades", "statement": "If every signal is None, a strategy opens no trade, every profit figure and counter is zero and the equity stays the initial capital.", "quantifier": "every configuration, provider and length", "why_tests_cant": "All histories of any length.", "anchors": ["pace/src/strategy/strategy.rs: Strategy::next"]}
{"id": "C80", "title": "With a fixed size the capital only shifts the equity", "statement": "Running the same signals with two initial capitals and buy_with_equity off gives identical trades and metrics except the equity, which is capital + net profit + open profit.", "quantifier": "every signal history, provider, pair of capitals", "why_tests_cant": "Relational property over all histories.", "anchors": ["pace/src/strategy/strategy.rs: Strategy::next"]}
{"id": "C81", "title": "With equity sizing everything is proportional to the capital", "statement": "With buy_with_equity, multiplying the initial capital by k > 0 multiplies every trade size, profit figure and the equity by k (exact arithmetic).", "quantifier": "every signal history, provider with real prices, k > 0", "why_tests_cant": "Relational property over all histories.", "anchors": ["pace/src/strategy/strategy.rs: Strategy::next"]}
{"id": "C82", "title": "Changing the price unit", "statement": "Replacing every price x by k*x + b (fixed size) multiplies every profit figure by k; with equity sizing replacing x by k*x leaves profits and equity unchanged and divides sizes by k (exact arithmetic).", "quantifier": "every signal history, provider with real prices, k > 0, b", "why_tests_cant": "Relational property over all histories.", "anchors": ["pace/src/strategy/strategy.rs: Strategy::next", "pace/src/strategy/trade.rs"]}
{"id": "C83", "title": "Mirrored signals mirror the results", "statement": "Swapping long and short signals (fixed size) gives the same trades with opposite directions and exactly opposite profits (bit for bit in f64); net/open profit change sign, gross profit and loss and winning and losing counts swap (exact arithmetic).", "quantifier": "every signal history and provider", "why_tests_cant": "Relational property over all histories.", "anchors": ["pace/src/strategy/strategy.rs: Strategy::next", "pace/src/strategy/trade.rs: trade_pnl", "pace/src/strategy/trade.rs"]}
{"id": "C84", "title": "Repeating a signal changes nothing in continuous mode", "statement": "In continuous mode, removing every signal equal to the latest earlier one changes neither trades nor metrics.", "quantifier": "every signal history, provider, configuration", "why_tests_cant": "Relational property over all histories.", "anchors": ["pace/src/strategy/strategy.rs: Strategy::next"]}
{"id": "C85", "title": "Equity is marked to market", "statement": "Between two bars the equity moves by (shares held before)*(fill price - previous close) + (shares held after)*(close - fill price), in every sizing mode (exact arithmetic).", "quantifier": "every signal history, provider, configuration", "why_tests_cant": "All histories of any length.", "anchors": ["pace/src/strategy/strategy.rs: Strategy::next"]}
{"id": "C86", "title": "Equity sizing compounds", "statement": "With buy_with_equity and positive prices the equity is the capital multiplied by the growth factor of every trade; a history without shorts keeps the equity positive; flat with equity <= 0, the equity never changes again and all later trades have size 0 (exact arithmetic).", "quantifier": "every signal history and provider with positive prices", "why_tests_cant": "All histories of any length.", "anchors": ["pace/src/strategy/strategy.rs: Strategy::next"]}
{"id": "C87", "title": "Which configurations are accepted", "statement": "The constructors panic exactly on the length 0 / length < 2 configurations they assert against and accept every other one; every default configuration is accepted.", "quantifier": "every configuration", "why_tests_cant": "All configurations.", "anchors": ["pace/src/ta/average_true_range.rs: Atr", "pace/src/ta/bars.rs", "pace/src/ta/change.rs: Change", "pace/src/ta/cross.rs: Cross", "pace/src/ta/cross_over.rs: CrossOver", "pace/src/ta/cross_over_threshold.rs: CrossOverThreshold", "pace/src/ta/cross_threshold.rs: CrossThreshold", "pace/src/ta/cross_under.rs: CrossUnder", "pace/src/ta/cross_under_threshold.rs: CrossUnderThreshold", "pace/src/ta/dev.rs: Dev", "pace/src/ta/exponential_moving_average.rs: Ema", "pace/src/ta/highest.rs: Highest", "pace/src/ta/highest_bars.rs: HighestBars", "pace/src/ta/lowest.rs: Lowest", "pace/src/ta/lowest_bars.rs: LowestBars", "pace/src/ta/moving_average.rs: Ma", "pace/src/ta/percent_rank.rs: Prank", "pace/src/ta/rate_of_change.rs: Roc", "pace/src/ta/relative_strength_index.rs: Rsi", "pace/src/ta/running_moving_average.rs: Rma", "pace/src/ta/simple_moving_average.rs: Sma", "pace/src/ta/stdev.rs: Stdev", "pace/src/ta/stoch.rs: Stoch", "pace/src/ta/sum.rs: Sum", "pace/src/ta/symmetrically_weighted_moving_average.rs: Swma", "pace/src/ta/true_range.rs: Tr", "pace/src/ta/weighted_moving_average.rs: Wma", "pace/src/content/aroon.rs: Aroon", "pace/src/content/awesome_oscillator.rs: AwesomeOscillator", "pace/src/content/balance_of_power.rs: BalanceOfPower", "pace/src/content/bollinger_bands_pb.rs: BollingerBandsPercentB", "pace/src/content/bollinger_bands_width.rs: BollingerBandsWidth", "pace/src/content/chaikin_money_flow.rs: ChaikinMoneyFlow", "pace/src/content/chande_kroll_stop.rs: ChandeKrollStop", "pace/src/content/chande_momentum_oscillator.rs: ChandeMomentumOscillator", "pace/src/content/choppiness_index.rs: ChoppinessIndex", "pace/src/content/commodity_channel_index.rs: CommodityChannelIndex", "pace/src/content/connors_relative_strength_index.rs: ConnorsRelativeStrengthIndex", "pace/src/content/coppock_curve.rs: CoppockCurve", "pace/src/content/directional_movement_index.rs: DirectionalMovementIndex", "pace/src/content/donchian_channels.rs: DonchianChannels", "pace/src/content/macd.rs: Macd", "pace/src/content/price_oscillator.rs: PriceOscillator", "pace/src/content/relative_strength_index.rs: RelativeStrengthIndex", "pace/src/content/relative_vigor_index.rs: RelativeVigorIndex", "pace/src/content/relative_volatility_index.rs: RelativeVolatilityIndex", "pace/src/content/stoch_relative_strength_index.rs: StochRelativeStrengthIndex", "pace/src/content/ultimate_oscillator.rs: UltimateOscillator", "pace/src/content/volume_oscillator.rs: VolumeOscillator", "pace/src/content/vortex.rs: Vortex", "pace/src/content/williams_percent_range.rs: WilliamsPercentRank"]}
{"id": "C88", "title": "Position of an extremum", "statement": "find_max_index / find_min_index return the position of the first maximum / minimum among the present values, the last position if all values are missing, and panic exactly on an empty series.", "quantifier": "every series without NaN", "why_tests_cant": "All series.", "anchors": ["pace/src/statistics/math.rs: find_max_index, find_min_index"]}
{"id": "C89", "title": "Backtests over complete bars do not panic", "statement": "Driving a strategy and EquityMetrics, TradingViewMetrics or CobraMetrics over bars with all four prices never panics, in any configuration; CobraMetrics with a start year also needs timestamps.", "quantifier": "every configuration, signal history and length, any arithmetic", "why_tests_cant": "All histories of any length.", "anchors": ["pace/src/strategy/metrics/cobra_metrics.rs: CobraMetrics", "pace/src/strategy/metrics/common.rs", "pace/src/strategy/metrics/equity_metrics.rs: EquityMetrics", "pace/src/strategy/metrics/returns.rs: Returns", "pace/src/strategy/metrics/tradingview_metrics.rs: TradingViewMetrics", "pace/src/strategy/strategy.rs: Strategy::next"]}
{"id": "C90", "title": "Intra-trade drawdown", "statement": "The intra-trade drawdown of CobraMetrics is the largest, over the closed trades, of the deepest adverse excursion of the trade's bars relative to its entry price; it is never negative.", "quantifier": "every configuration and signal history", "why_tests_cant": "A maximum over all bars of all trades.", "anchors": ["pace/src/strategy/metrics/cobra_metrics.rs: CobraMetrics::next"]}
{"id": "C91", "title": "Equity band while flat", "statement": "While no trade is open the per-bar equity band of EquityMetrics is the net equity itself.", "quantifier": "every configuration and signal history", "why_tests_cant": "All histories of any length.", "anchors": ["pace/src/strategy/metrics/equity_metrics.rs: EquityMetrics::next"]}
{"id": "C92", "title": "Estimated ratios of CobraMetrics", "statement": "In estimated mode the Sharpe, Sortino and Omega figures are the annualised ratios of the per-bar returns from the start year on, with the sample standard deviation (exact arithmetic).", "quantifier": "every configuration, signal history, start year", "why_tests_cant": "Statistics over whole histories.", "anchors": ["pace/src/strategy/metrics/cobra_metrics.rs: CobraMetrics::next"]}
{"id": "C93", "title": "The example program end to end", "statement": "On a data frame of bars whose four prices are present and not NaN, the example program runs to the end without panicking; its RSI(14) of the closes drives the 50/50 threshold strategy, the trades are those of the order book of those signals, and the metrics are TradingViewMetrics after every bar.", "quantifier": "every data frame of any number of bars, any arithmetic", "why_tests_cant": "Every data file.", "anchors": ["example/src/main.rs: main", "pace/src/core/context.rs: Context::next", "pace/src/content/relative_strength_index.rs: RelativeStrengthIndex", "pace/src/strategy/strategy.rs: Strategy::next"]}
{"id": "C94", "title": "Reading a data frame", "statement": "A data frame becomes a data provider exactly when it has the six columns open, high, low, close, volume and time, at least one close, and convertible timestamps; otherwise the program panics. Every cell lands in its own column and NaN cells are missing values. Files are read and written only as parquet or csv, by extension.", "quantifier": "every data frame and extension", "why_tests_cant": "All tables.", "anchors": ["pace/src/polars/in_memory_data_provider.rs: InMemoryDataProvider::from_df", "pace/src/polars/io.rs: read_df, save_df", "pace/src/polars/series.rs: SeriesCastUtils::to_duration"]}
{"id": "C95", "title": "Colours of the reports", "statement": "Each coloured figure of the Cobra and TradingView overviews is green above its upper threshold, red below its lower one and neutral in between, where a worse drawdown is never shown in a better colour.", "quantifier": "every metrics value", "why_tests_cant": "All figures, including NaN and infinities.", "anchors": ["pace/src/strategy/metrics/cobra_metrics.rs: CobraMetricsData::print", "pace/src/strategy/metrics/tradingview_metrics.rs: TradingViewMetricsData::print_overview"]}
{"id": "C96", "title": "Labels and markers of a trade", "statement": "The label of a trade says open exactly while it is open and exit exactly at its exit bar; the marker is a triangle in the trade's direction at the entry bar while open, against it at the exit bar, and otherwise a dash. Rendering never panics.", "quantifier": "every configuration, signal history, trade and bar", "why_tests_cant": "All histories of any length.", "anchors": ["pace/src/strategy/trade.rs: Trade::to_colored_string, Trade::get_triangle_colored_string"]}
{"id": "C97", "title": "Default configurations", "statement": "An indicator built with its default configuration outputs, on complete bars, exactly what its textbook formula gives with the documented default lengths and sources (Aroon 14, Bollinger 20 and 2, CCI 20, Connors 3/2/100, RSI 14, Stochastic RSI 14/14/3/3, Ultimate 7/14/28, Vortex 14, ...).", "quantifier": "every bar history", "why_tests_cant": "All histories.", "anchors": ["pace/src/content/aroon.rs: AroonConfig::default", "pace/src/content/bollinger_bands_pb.rs: BollingerBandsPercentBConfig::default", "pace/src/content/connors_relative_strength_index.rs: ConnorsRelativeStrengthIndexConfig::default", "pace/src/content/stoch_relative_strength_index.rs", "pace/src/content/ultimate_oscillator.rs"]}
{"id": "C98", "title": "Exponential averages do not drift", "statement": "In f64 arithmetic the exponential (Ema) and Wilder (Rma) averages stay within a fixed relative distance, proportional to the length only and independent of how many values were processed, of the exact average of the values.", "quantifier": "every length up to 2^32, every finite input history of any length whose magnitude is representable", "why_tests_cant": "Rounding errors accumulate over arbitrarily long histories.", "anchors": ["pace/src/ta/exponential_moving_average.rs: Ema::next", "pace/src/ta/running_moving_average.rs: Rma::next"]}
{"id": "C99", "title": "Moving sums stay near the window", "statement": "In f64 arithmetic the moving sum and the simple moving average stay within a rounding error of the true sum and mean of the current window, whatever came before the window.", "quantifier": "every length and every finite input history", "why_tests_cant": "The error depends on the whole history, not on the window.", "anchors": ["pace/src/ta/sum.rs: Sum::next", "pace/src/ta/simple_moving_average.rs: Sma::next"]}
{"id": "C100", "title": "Whole backtests compose", "statement": "Any library indicator feeding any library signal component driving a strategy watched by any metrics component runs to the end over complete bars without panicking, and every stage outputs exactly what it outputs on its own when given the outputs of the stage before.", "quantifier": "every indicator and configuration that can be constructed, every signal component and thresholds, every strategy configuration, every metrics component, every history of complete bars", "why_tests_cant": "All combinations of components, configurations and histories.", "anchors": ["pace/src/content/aroon.rs: AroonStrategy", "pace/src/content/awesome_oscillator.rs: AwesomeOscillatorStrategy", "pace/src/content/balance_of_power.rs: BalanceOfPowerStrategy", "pace/src/content/bollinger_bands_pb.rs: BollingerBandsPercentBStrategy", "pace/src/content/chaikin_money_flow.rs: ChaikinMoneyFlowStrategy", "pace/src/content/chande_momentum_oscillator.rs: ChandeMomentumOscillatorStrategy", "pace/src/content/commodity_channel_index.rs: CommodityChannelIndexStrategy", "pace/src/content/connors_relative_strength_index.rs: ConnorsRelativeStrengthIndexStrategy", "pace/src/content/coppock_curve.rs: CoppockCurveStrategy", "pace/src/content/directional_movement_index.rs", "pace/src/content/macd.rs: MacdStrategy", "pace/src/content/price_oscillator.rs: PriceOscillatorStrategy", "pace/src/content/relative_strength_index.rs: RelativeStrengthIndexStrategy", "pace/src/content/relative_vigor_index.rs: RelativeVigorIndexStrategy", "pace/src/content/relative_volatility_index.rs: RelativeVolatilityIndexStrategy", "pace/src/content/stoch_relative_strength_index.rs", "pace/src/content/volume_oscillator.rs: VolumeOscillatorStrategy", "pace/src/content/vortex.rs: VortexStrategy", "pace/src/content/williams_percent_range.rs: WilliamsPercentRankStrategy", "pace/src/strategy/strategy.rs: Strategy::next", "pace/src/strategy/metrics/cobra_metrics.rs: CobraMetrics::next", "pace/src/strategy/metrics/tradingview_metrics.rs: TradingViewMetrics::next", "pace/src/strategy/metrics/equity_metrics.rs: EquityMetrics::next"]}
{"id": "C101", "title": "Components do not interfere", "statement": "When one loop over a context drives several components that own clones of that context, each component outputs exactly what it outputs when it is the only one, and the loop ends without panic exactly when each alone would. Components owning another context are not moved.", "quantifier": "every number and kind of components, every provider and context heap", "why_tests_cant": "All sets of components sharing one cell.", "anchors": ["pace/src/core/context.rs: Context::next, Context::clone", "pace/src/core/incremental.rs: Incremental::next"]}
{"id": "C102", "title": "Moving the context by hand", "statement": "Setting the bar index by hand through first..=last, as the benchmark does, drives the components exactly as iterating the context does.", "quantifier": "every provider, every set of components, every library component", "why_tests_cant": "All histories and components.", "anchors": ["pace/src/core/context.rs: Context::next, Bar::index"]}
{"id": "C103", "title": "Prices turned upside down", "statement": "Replace every price x by m - x (highs and lows change places), in exact arithmetic: every moving average v becomes m - v and the highest becomes m minus the lowest; the true range and its average are unchanged; RSI becomes 100 - RSI, Williams %R becomes -100 minus itself, CMO, balance of power, money flow and CCI change sign; the plus and minus lines of Vortex and of the DMI and the up and down lines of Aroon change places; cross-overs become cross-unders; a backtest of the opposite signals on the mirrored prices takes the opposite trades with the same profits; the RSI strategy does so end to end.", "quantifier": "every mirror m, every price series and bar series, every length and warm-up", "why_tests_cant": "All price series and all mirrors.", "anchors": ["pace/src/ta/relative_strength_index.rs: Rsi::next", "pace/src/ta/highest.rs: Highest::next", "pace/src/content/directional_movement_index.rs: DirectionalMovementIndex::next", "pace/src/content/vortex.rs: Vortex::next", "pace/src/content/aroon.rs: Aroon::next", "pace/src/strategy/strategy.rs: Strategy::next"]}
{"id": "C104", "title": "Smoothed averages forget their past at a known rate", "statement": "Two Ema (Rma) objects fed different histories and then the same k values differ by exactly (1 - alpha)^k times what they differed by before, in exact arithmetic, whatever the histories; in f64, with all values of magnitude at most M, they end within 2M(1 - alpha)^k plus the rounding error of C98.", "quantifier": "every pair of histories of at least the length, every common continuation, every length", "why_tests_cant": "Unbounded histories; the claim is about a limit.", "anchors": ["pace/src/ta/exponential_moving_average.rs: Ema::next", "pace/src/ta/running_moving_average.rs: Rma::next"]}
{"id": "C105", "title": "Averages keep the order of their inputs and do not amplify errors", "statement": "If one input series is nowhere more than d above another (gaps at the same bars), then so are the Sma, Wma, Swma, Ema, Rma, Highest and Lowest of it, in exact arithmetic (d = 0: the averages are monotone; both directions: an input error of d moves the output by at most d); a moving sum by at most length times d. In f64, overflow, infinities and NaN included, Ema, Rma, Wma and Swma are monotone, and Highest and Lowest are on data without NaN. Sma and Sum are not monotone in f64: a concrete series is proved on which raising a price lowers a later average.", "quantifier": "every pair of series, every length, every d", "why_tests_cant": "All pairs of series, all float values.", "anchors": ["pace/src/ta/simple_moving_average.rs: Sma::next", "pace/src/ta/weighted_moving_average.rs: Wma::next", "pace/src/ta/symmetrically_weighted_moving_average.rs: Swma::next", "pace/src/ta/exponential_moving_average.rs: Ema::next", "pace/src/ta/running_moving_average.rs: Rma::next", "pace/src/ta/highest.rs: Highest::next", "pace/src/ta/lowest.rs: Lowest::next"]}
{"id": "C106", "title": "Warm-up: the bar from which each component reports values", "statement": "Each moving average, window statistic and indicator reports no value before a bar given by its lengths alone, and (given complete bars) a value at every bar from there on where none of its formulas can be undefined: length - 1 for averages, sums, extrema, deviations; length for Rsi, Change, Roc; and the corresponding sums and maxima for composed indicators (for instance MACD signal at max(short,long) + signal - 2 with plain averages, ADX not before 2 lengths - 1). The Chande Kroll stops and the Stochastic RSI start earlier than their own lengths suggest, because their extrema accept partly filled windows.", "quantifier": "every length, moving-average kind and complete price series", "why_tests_cant": "All lengths and all series.", "anchors": ["pace/src/ta/average_true_range.rs: Atr", "pace/src/ta/bars.rs", "pace/src/ta/change.rs: Change", "pace/src/ta/cross.rs: Cross", "pace/src/ta/cross_over.rs: CrossOver", "pace/src/ta/cross_over_threshold.rs: CrossOverThreshold", "pace/src/ta/cross_threshold.rs: CrossThreshold", "pace/src/ta/cross_under.rs: CrossUnder", "pace/src/ta/cross_under_threshold.rs: CrossUnderThreshold", "pace/src/ta/dev.rs: Dev", "pace/src/ta/exponential_moving_average.rs: Ema", "pace/src/ta/highest.rs: Highest", "pace/src/ta/highest_bars.rs: HighestBars", "pace/src/ta/lowest.rs: Lowest", "pace/src/ta/lowest_bars.rs: LowestBars", "pace/src/ta/moving_average.rs: Ma", "pace/src/ta/percent_rank.rs: Prank", "pace/src/ta/rate_of_change.rs: Roc", "pace/src/ta/relative_strength_index.rs: Rsi", "pace/src/ta/running_moving_average.rs: Rma", "pace/src/ta/simple_moving_average.rs: Sma", "pace/src/ta/stdev.rs: Stdev", "pace/src/ta/stoch.rs: Stoch", "pace/src/ta/sum.rs: Sum", "pace/src/ta/symmetrically_weighted_moving_average.rs: Swma", "pace/src/ta/true_range.rs: Tr", "pace/src/ta/weighted_moving_average.rs: Wma", "pace/src/content/aroon.rs: Aroon", "pace/src/content/awesome_oscillator.rs: AwesomeOscillator", "pace/src/content/balance_of_power.rs: BalanceOfPower", "pace/src/content/bollinger_bands_pb.rs: BollingerBandsPercentB", "pace/src/content/bollinger_bands_width.rs: BollingerBandsWidth", "pace/src/content/chaikin_money_flow.rs: ChaikinMoneyFlow", "pace/src/content/chande_kroll_stop.rs: ChandeKrollStop", "pace/src/content/chande_momentum_oscillator.rs: ChandeMomentumOscillator", "pace/src/content/choppiness_index.rs: ChoppinessIndex", "pace/src/content/commodity_channel_index.rs: CommodityChannelIndex", "pace/src/content/connors_relative_strength_index.rs: ConnorsRelativeStrengthIndex", "pace/src/content/coppock_curve.rs: CoppockCurve", "pace/src/content/directional_movement_index.rs: DirectionalMovementIndex", "pace/src/content/donchian_channels.rs: DonchianChannels", "pace/src/content/macd.rs: Macd", "pace/src/content/price_oscillator.rs: PriceOscillator", "pace/src/content/relative_strength_index.rs: RelativeStrengthIndex", "pace/src/content/relative_vigor_index.rs: RelativeVigorIndex", "pace/src/content/relative_volatility_index.rs: RelativeVolatilityIndex", "pace/src/content/stoch_relative_strength_index.rs: StochRelativeStrengthIndex", "pace/src/content/ultimate_oscillator.rs: UltimateOscillator", "pace/src/content/volume_oscillator.rs: VolumeOscillator", "pace/src/content/vortex.rs: Vortex", "pace/src/content/williams_percent_range.rs: WilliamsPercentRank"]}
{"id": "C107", "title": "Ranges that rounding cannot break, and one that it does", "statement": "In f64, overflow, infinities and NaN included, every value reported is NaN or: non-negative for Dev, Stdev, True Range, Atr, the two directional indicators, and Ema, Rma, Wma, Swma of non-negative values; within [0, 1] for Ema and Rma of values within [0, 1]; within [0, 100] for ADX and Connors RSI; within [-1, 1] for Balance of Power; within [-100, 0] for Williams %R. The Stochastic stays within [0, 100.00000000000001] and does exceed 100 (close = high = 1.11, low = 1). The Chande Momentum Oscillator does not stay within [-100, 100]: a concrete series of eight closes is proved on which it reports 300.", "quantifier": "every length and every f64 series with low <= value <= high where a range is used", "why_tests_cant": "All float values, including the ones where rounding is unfavourable.", "anchors": ["pace/src/ta/exponential_moving_average.rs: Ema::next", "pace/src/ta/running_moving_average.rs: Rma::next", "pace/src/ta/weighted_moving_average.rs: Wma::next", "pace/src/ta/symmetrically_weighted_moving_average.rs: Swma::next", "pace/src/ta/dev.rs: Dev::next", "pace/src/ta/stdev.rs: Stdev::next", "pace/src/ta/true_range.rs: Tr::next", "pace/src/ta/average_true_range.rs: Atr::next", "pace/src/ta/stoch.rs: Stoch::next", "pace/src/content/directional_movement_index.rs: DirectionalMovementIndex::next", "pace/src/content/balance_of_power.rs: BalanceOfPower::next", "pace/src/content/williams_percent_range.rs: WilliamsPercentRank::next", "pace/src/content/connors_relative_strength_index.rs: ConnorsRelativeStrengthIndex::next", "pace/src/content/chande_momentum_oscillator.rs: ChandeMomentumOscillator::next"]}
{"id": "C108", "title": "Reports in other units", "statement": "With prices multiplied by p and trade sizes by z (capital and risk-free rate converted like money), every bar's strategy state, equity figures and TradingView report are the old ones with amounts of money multiplied by p*z and with identical ratios, percentages and counts; the Cobra report is identical except its intra-trade drawdown, which is multiplied by z. So scaling the capital with equity sizing, changing the currency, or a stock split only rescales amounts. The default risk-free rate is itself an amount of money: left unconverted, the Sharpe ratio changes.", "quantifier": "all positive p and z (z = 1 unless trades are sized by equity), all configurations, data, signals and bars, including infinite and undefined values, panicking runs included", "why_tests_cant": "A test fixes one conversion factor and one run; the claim relates all pairs of runs.", "anchors": ["pace/src/strategy/strategy.rs: Strategy::next", "pace/src/strategy/metrics/tradingview_metrics.rs: TradingViewMetrics::next", "pace/src/strategy/metrics/cobra_metrics.rs: CobraMetrics::next", "pace/src/strategy/metrics/equity_metrics.rs: EquityMetrics::next"]}
{"id": "C109", "title": "Variances in f64 are never negative", "statement": "Computed in f64, the fast variance and standard deviation of a series of values not above 2^1022 in size are, at every bar, a number that is not negative (never NaN), and exactly zero for equal values; the slow variance and standard deviation are never negative for any values. The two limits are real: two values near the largest f64 give a fast variance of minus infinity and a NaN deviation, and three equal values 0.1 give a slow variance above zero.", "quantifier": "all series (up to 2^53 bars) of finite values of size at most 2^1022 for the fast form, all series of any values for the slow form", "why_tests_cant": "A negative variance would need one particular sequence of roundings; no set of examples rules it out.", "anchors": ["pace/src/statistics/welfords_var.rs: WelfordsVar::next", "pace/src/statistics/welfords_stdev.rs: WelfordsStdev::next", "pace/src/statistics/var.rs: Var::next", "pace/src/statistics/stdev.rs: Stdev::next", "pace/src/statistics/common.rs: var_from_mean"]}
{"id": "C110", "title": "Printed reports say what the figures are", "statement": "Every number printed by print_summary, print_overview (TradingView) and print (Cobra) is the figure its label names, correctly rounded: reading the text back gives the figure to the stated number of decimals, ties to even, so never more than half a unit of the last decimal away and never out of order; counts are exact; ratios are shown in percent; undefined and infinite figures print as NaN and inf. After any backtest the summary's trade counts are the numbers of closed, winning and losing trades and its profit rows the sums of the trades' profits.", "quantifier": "every f64 figure, including negative zero, infinities and NaN; every number of decimals; every currency text; every backtest", "why_tests_cant": "Rounding of decimal output must hold for all 2^64 values; examples cannot cover ties and signs.", "anchors": ["pace/src/utils/string.rs: with_suffix", "pace/src/strategy/metrics/tradingview_metrics.rs: TradingViewMetricsData::print_summary", "pace/src/strategy/metrics/tradingview_metrics.rs: TradingViewMetricsData::print_overview", "pace/src/strategy/metrics/cobra_metrics.rs: CobraMetricsData::print"]}
{"id": "C111", "title": "Golden-file tests accept exactly the right outputs", "statement": "Running a component over the bars of a loaded fixture and comparing with the fixture's _target_ column succeeds exactly when there is one output per cell and each agrees: for values, both missing (an empty or NaN cell counts as missing) or within 1e-5; for signals, 1 is long, -1 short, anything else no signal. It fails when the frame has no such column or cannot be loaded. For the relative-strength-index fixtures this means: exactly when the column is the 14-bar RSI of the closes, or the crossings of 30 and 70.", "quantifier": "every frame, component that runs over it without failing, and target column", "why_tests_cant": "a fixture test run tells one frame's verdict; that a wrong output can never pass and a right one never fail is about every frame and target", "anchors": ["pace/src/testing/fixture.rs: Fixture::load_ctx, DataFrameFixtureUtils::test_target, DataFrameFixtureUtils::test_trade_dir_target", "pace/src/polars/series.rs: SeriesCastUtils::to_f64, SeriesCastUtils::to_trade_dir", "pace/src/testing/array_snapshot.rs: ArraySnapshot::assert, ArraySnapshot::assert_iter", "pace/src/content/relative_strength_index.rs: RelativeStrengthIndex, RelativeStrengthIndexStrategy"]}
{"id": "C112", "title": "Backtests over whole-tick prices are exact in f64", "statement": "Suppose every price and the initial capital are whole numbers of ticks of size a power of two (whole dollars, quarters, 1/256ths), at most A ticks, and the size of a trade is fixed. Then for up to n bars with (4n + 6) * A < 2^53, the f64 backtest is the backtest in exact real arithmetic: the same trades with the same prices and profits, the same net, gross and open profit, equity, drawdown and run-up, the same counts and histories, and one panics exactly when the other does. Net profit is the sum of the closed trades' price moves, gross profit and loss the sums of the positive and negative ones, equity is capital plus net plus open profit, with no rounding error; each percentage, profit factor and average is the f64 nearest to the exact quotient, and the printed amounts and percentages show those figures. Prices such as 0.1 do not have the guarantee: the reported profit of a trade from 0.1 to 100 is not the difference of the two prices.", "quantifier": "all tick sizes 2^e, price and capital bounds, configurations with a fixed size, markets, lists of signals and bars", "why_tests_cant": "exactness must hold after any number of additions, for all prices and trading histories; a test compares a few figures with a tolerance.", "anchors": ["pace/src/strategy/strategy.rs: Strategy::next", "pace/src/strategy/trade.rs: Trade", "pace/src/strategy/metrics/equity_metrics.rs: EquityMetrics::next", "pace/src/strategy/metrics/tradingview_metrics.rs: TradingViewMetrics::next, print_summary"]}
{"id": "C113", "title": "Windowed indicators over whole-tick prices are exact in f64 for any number of bars", "statement": "When every price is a whole number of ticks of size 2^e, at most A ticks, with window length times A comfortably below 2^53, the f64 results do not drift however many bars are fed: Sum is exactly the sum of its window, Sma is the f64 nearest to the mean of its window, Change is exact, Roc, the Chande momentum oscillator (always within -100..100), Vortex, balance of power (within -1..1), and the Donchian middle line are the single rounding of the exact formula, the Donchian upper and lower lines are the exact extremes, and Williams %R is two roundings of its formula and within -100..0. Consequently an average depends only on its window, stays between the smallest and largest price of the window, and never falls when prices rise.", "quantifier": "every tick size, every price bound, every window length within the bound, every series and bar history of any length, with missing prices where the component allows them", "why_tests_cant": "Sum and Sma keep a running total that adds and subtracts in floating point for ever; a test sees finitely many bars and cannot show the total never drifts (for prices outside the bound it does drift, C99).", "anchors": ["pace/src/ta/sum.rs: Sum::next", "pace/src/ta/simple_moving_average.rs: Sma::next", "pace/src/ta/change.rs: Change::next", "pace/src/ta/rate_of_change.rs: Roc::next", "pace/src/content/chande_momentum_oscillator.rs: ChandeMomentumOscillator::next", "pace/src/content/vortex.rs: Vortex::next", "pace/src/content/balance_of_power.rs: BalanceOfPower::next", "pace/src/content/donchian_channels.rs: DonchianChannels::next", "pace/src/content/williams_percent_range.rs: WilliamsPercentRank::next"]}
{"id": "C114", "title": "Charts show the recorded histories", "statement": "plot_equity, plot_net_equity and plot_max_drawdown hand the plotting library one point per entry of the history, in order, with the requested size and an axis from 1 to the number of entries. Entry j is drawn at j + 1, so the equity after bar i stands at i + 2 (the initial capital comes first), and net equity and maximum drawdown have one point per closed trade after the first. The height is the f32 nearest to the recorded amount (NaN and infinities as themselves; beyond the f32 range an infinity of the same sign), so order is preserved (a curve that does not fall is not drawn as falling) and amounts of at most 2^24 whole ticks are drawn exactly. Horizontal positions are exact and distinct for up to 2^24 entries, never go backwards for any number of entries, and collide from entry 2^24 on.", "quantifier": "all histories (any length up to 2^64, any f64 values including NaN and infinities), chart sizes, configurations, markets and lists of signals", "why_tests_cant": "the claim is about every history, every value and the rounding of every position; a test looks at one picture.", "anchors": ["pace/src/strategy/metrics/tradingview_metrics.rs: TradingViewMetricsData, text_plot, plot_net_equity, plot_max_drawdown, plot_equity"]}
{"id": "C115", "title": "Over whole-tick prices the f64 signals are the signals of exact arithmetic", "statement": "If all prices are whole multiples of one power-of-two tick and not too many ticks, the strategies over two Sma lines (as a line cross, and as PriceOscillator with SMA averages of positive prices), ChandeMomentumOscillator, BalanceOfPower, WilliamsPercentRank and Vortex signal Long and Short at exactly the bars where the exactly computed values cross the thresholds or each other: rounding never adds, drops or moves a signal, not even when a value is exactly on a threshold. A backtest of such a strategy with the TradingView metrics is then the backtest of exact arithmetic: same trades, same amounts. For other prices this is false: over 0.7, 0.2, 0.2 the average of one price gets above the average of two in f64, and a Long signal appears where both are 0.2.", "quantifier": "all tick sizes 2^e with -1000 <= e <= 960, price bounds A and lengths with the stated products below 2^53 (e.g. 4(A+1)nm for averages of n and m), series and bars of any length, configurations without equity tracking, all lists of bars", "why_tests_cant": "a signal flips when rounding moves one value across a threshold by one unit in the last place; only a proof excludes that for every window of every series.", "anchors": ["pace/src/content/price_oscillator.rs: PriceOscillator::next, PriceOscillatorStrategy", "pace/src/content/chande_momentum_oscillator.rs: ChandeMomentumOscillator::next, ChandeMomentumOscillatorStrategy", "pace/src/content/balance_of_power.rs: BalanceOfPower::next, BalanceOfPowerStrategy", "pace/src/content/williams_percent_range.rs: WilliamsPercentRank::next, WilliamsPercentRankStrategy", "pace/src/content/vortex.rs: Vortex::next, VortexStrategy", "pace/src/ta/simple_moving_average.rs: Sma::next", "pace/src/ta/cross.rs: Cross::next", "pace/src/strategy/strategy.rs: Strategy::next"]}
{"id": "C116", "title": "Rounding never turns a loss into a win", "statement": "In f64, with one share per trade and finite fill prices, a closed trade has a positive profit if and only if the price moved in its favour (long: exit above entry, short: exit below) and a negative one if and only if it moved against it, however small the move; so winning_trades_count, losing_trades_count, gross_profit and gross_loss are those of exactly these trades, and while fill prices only rise the winners are the longs and the losers the shorts. With trades on all equity the same holds unless the exact result is below 2^-1000 (there a trade may be counted as neither). For any data, NaN and infinities included, and any sizing: a trade the price did not move against is never counted as losing, one it did not move in favour of never as winning, and the value of a trade never gets worse at a better price.", "quantifier": "all configurations, signal histories, price columns and trades; all prices for monotonicity", "why_tests_cant": "a sign is lost when a difference or product underflows or rounds the wrong way; tests sample a few price pairs out of 2^128.", "anchors": ["pace/src/strategy/trade.rs: trade_pnl, fill_size, Trade::pnl", "pace/src/strategy/strategy.rs: Strategy::next, StrategyMetrics"]}
{"id": "C117", "title": "Trending markets: what the indicators show while prices only rise or only fall", "statement": "While the input strictly rises, Highest is the newest value, Lowest the oldest of the window, Aroon up is that of age 0 and Aroon down that of age len-1, and Prank is 100 (in f64 exactly); while it strictly falls, the other way round and Prank is 0. In f64, with steps of at least 2^-900, Rsi is exactly 100 while prices rise and exactly 0 while they fall, from the bar after the first len changes on, even when the sums overflow to infinity; with smaller steps it may become NaN. Over rising or falling prices of whole ticks the crossover of Sma(n) and Sma(m), n < m, never signals.", "quantifier": "all strictly rising and strictly falling series of any length, all window lengths and contexts", "why_tests_cant": "ties, rounding and division by zero decide the extreme values; tests show one short series, the claim is about every trend of any length.", "anchors": ["pace/src/ta/highest.rs: Highest::next", "pace/src/ta/lowest.rs: Lowest::next", "pace/src/content/aroon.rs: Aroon::next", "pace/src/ta/percent_rank.rs: Prank::next", "pace/src/ta/relative_strength_index.rs: Rsi::next", "pace/src/ta/simple_moving_average.rs: Sma::next", "pace/src/ta/cross.rs: Cross::next"]}
{"id": "C118", "title": "Flat markets: no strategy signals while every bar is the same", "statement": "An indicator whose value never changes once it has one makes its threshold, crossover, DMI, stochastic-RSI and Aroon strategies silent, in any number format. While every bar is the same bar, in exact arithmetic the strategies on Aroon, Awesome Oscillator, Balance of Power, Bollinger %B, Chaikin Money Flow, Chande Momentum Oscillator, Commodity Channel Index, Connors RSI, Coppock Curve, DMI, MACD, Price Oscillator, Relative Vigor Index, RSI, Stochastic RSI, Volume Oscillator, Vortex and Williams %R run to the end and never signal, for any lengths and thresholds. In f64 the same holds for Aroon, Balance of Power, Chande Momentum, Connors RSI, DMI, RSI, Stochastic RSI, Vortex and Williams, over any finite bar; it does not for the averaged ones: a price that stands at 0.49 makes the default MACD buy at the 28th bar.", "quantifier": "all bars, all numbers of bars, all lengths, thresholds, multipliers and sources", "why_tests_cant": "division of zero by zero, running sums and recursive averages decide what a constant series becomes after any number of bars; a test shows one price for one length.", "anchors": ["pace/src/content/aroon.rs: Aroon::next, AroonStrategy::next", "pace/src/content/awesome_oscillator.rs: AwesomeOscillator::next, AwesomeOscillatorStrategy::next", "pace/src/content/balance_of_power.rs: BalanceOfPower::next, BalanceOfPowerStrategy::next", "pace/src/content/bollinger_bands_pb.rs: BollingerBandsPercentB::next, BollingerBandsPercentBStrategy::next", "pace/src/content/chaikin_money_flow.rs: ChaikinMoneyFlow::next, ChaikinMoneyFlowStrategy::next", "pace/src/content/chande_momentum_oscillator.rs: ChandeMomentumOscillator::next, ChandeMomentumOscillatorStrategy::next", "pace/src/content/commodity_channel_index.rs: CommodityChannelIndex::next, CommodityChannelIndexStrategy::next", "pace/src/content/connors_relative_strength_index.rs: ConnorsRelativeStrengthIndex::next, ConnorsRelativeStrengthIndexStrategy::next", "pace/src/content/coppock_curve.rs: CoppockCurve::next, CoppockCurveStrategy::next", "pace/src/content/directional_movement_index.rs: DirectionalMovementIndex::next", "pace/src/content/macd.rs: Macd::next, MacdStrategy::next", "pace/src/content/price_oscillator.rs: PriceOscillator::next, PriceOscillatorStrategy::next", "pace/src/content/relative_strength_index.rs: Rsi::next, RelativeStrengthIndexStrategy::next", "pace/src/content/relative_vigor_index.rs: RelativeVigorIndex::next, RelativeVigorIndexStrategy::next", "pace/src/content/stoch_relative_strength_index.rs: StochRelativeStrengthIndex::next", "pace/src/content/volume_oscillator.rs: VolumeOscillator::next, VolumeOscillatorStrategy::next", "pace/src/content/vortex.rs: Vortex::next, VortexStrategy::next", "pace/src/content/williams_percent_range.rs: WilliamsPercentRank::next, WilliamsPercentRankStrategy::next", "pace/src/ta/cross.rs: Cross::next"]}
{"id": "C119", "title": "Reported amounts stay near the real ones, however many trades there are", "statement": "Nothing is assumed about prices, capital or sizing. In f64, whenever a total of a backtest (net profit, long and short net profit, gross profit, gross loss) is a number, it differs from the real sum of what its n closed trades made (exit less entry price, times the recorded size, signed by direction) by at most ((1+2^-53)^(n+2) - 1) times the sum of the magnitudes plus n underflows; the equity after each bar by at most n+4 roundings of capital, closed and open amounts; the average trade and the net profit percentage by one more. In plain terms at most 2^-52 per trade. Mean is within i+1 roundings of the mean of its i inputs. Against the total itself there is no such bound: 10^16, 1 and -10^16 add up to 0.", "quantifier": "all backtests with any number of bars and trades, all f64 data including NaN, infinities and subnormal numbers", "why_tests_cant": "rounding errors accumulate over the trades; a test can only show that one history came out right to some digits.", "anchors": ["pace/src/strategy/trade.rs: trade_pnl", "pace/src/strategy/strategy.rs: Strategy::next, StrategyMetrics", "pace/src/strategy/metrics/tradingview_metrics.rs: TradingViewMetrics::next", "pace/src/strategy/metrics/common.rs: avg_trade, net_profit_percent", "pace/src/statistics/mean.rs: Mean::next"]}
{"id": "C120", "title": "Missing values: exactly which data makes a component panic", "statement": "For every length and every pattern of missing values: the last-value filler, the window validator, simple, symmetric and weighted averages, sums, changes, rates of change, deviations, extrema, percent ranks, stochastics, cross detectors and threshold strategies never panic, also behind another component; the exponential and Wilder's averages panic exactly when a value is missing some time after n consecutive ones were there, the relative strength index after n + 1, the price and volume oscillators and MACD (over those averages) after as many as the shorter average takes; behind the last-value filler none of them ever panics. Over bars: Aroon, Balance of Power, Chaikin Money Flow, Donchian, Relative Vigor and Ultimate never panic whatever is missing; Bollinger, Chande momentum, CCI, Coppock and Williams panic exactly when a bar lacks a price their averaged source needs (never for a raw price); True Range, ATR, Chande Kroll, Choppiness and Vortex exactly when a bar lacks a high or a low; the Directional Movement Index whenever one does.", "quantifier": "all lengths, all series of values and bars with any pattern of missing entries, all contexts", "why_tests_cant": "a panic depends on the pattern of gaps and on when the window filled; tests feed complete series.", "anchors": ["pace/src/ta/exponential_moving_average.rs: Ema::next", "pace/src/ta/running_moving_average.rs: Rma::next", "pace/src/ta/relative_strength_index.rs: Rsi::next", "pace/src/ta/true_range.rs: Tr::next", "pace/src/ta/average_true_range.rs: Atr::next", "pace/src/ta/simple_moving_average.rs: Sma::next", "pace/src/common/fixnan.rs: FixNan::next", "pace/src/common/src.rs: Src::next", "pace/src/content/macd.rs: Macd::next", "pace/src/content/price_oscillator.rs: PriceOscillator::next", "pace/src/content/volume_oscillator.rs: VolumeOscillator::next", "pace/src/content/chande_kroll_stop.rs: ChandeKrollStop::next", "pace/src/content/choppiness_index.rs: ChoppinessIndex::next", "pace/src/content/vortex.rs: Vortex::next", "pace/src/content/directional_movement_index.rs: DirectionalMovementIndex::next", "pace/src/content/commodity_channel_index.rs: CommodityChannelIndex::next"]}
{"id": "C121", "title": "What the trades of a backtest depend on", "statement": "For all data, signals and configurations, bit for bit: two price histories that agree at the bars where trades were entered or left (closes with on_bar_close, else opens) give the same trades, net profit, gross figures, counters and long/short profits, whatever the other prices are, and also the same open profit and equity if the last close agrees; if every bar opens at the close before it, filling at the close and filling at the next open make the same trades one bar apart and report the same figures after a bar without a signal; bars without a signal before the first one change nothing.", "quantifier": "all price histories, signal sequences and configurations, any arithmetic", "why_tests_cant": "the claims compare every pair of price histories that differ somewhere irrelevant; a test compares two.", "anchors": ["pace/src/strategy/strategy.rs: Strategy::next, StrategyConfig, StrategyMetrics", "pace/src/strategy/trade.rs: Trade, trade_pnl"]}
{"id": "C122", "title": "Averages recomputed from their window do not drift", "statement": "In f64, for a weighted average of any length up to 2^17 that runs from the first bar, whatever came before the window (infinities and NaN included) and however many bars were processed: a weighted average (Wma) that is a number is within length + 3 roundings, relative to the weighted mean of the absolute values of the window, of the exact weighted mean of the window, and the symmetric one (Swma) within 6; it is a number whenever the values of the window do not exceed 2^900; and Wma leaves the range [lo, hi] of its window by at most (length + 3) * 2^-52 times the largest absolute value. (The averages that keep a running sum, Sma and Sum, have none of this: C70, C99.)", "quantifier": "every length up to 2^17, every f64 series, every bar", "why_tests_cant": "the claim compares the computed value with an exact real number, for every history before the window.", "anchors": ["pace/src/ta/weighted_moving_average.rs: Wma::next", "pace/src/ta/symmetrically_weighted_moving_average.rs: Swma::next"]}
{"id": "C123", "title": "Ratios of the current window are accurate for any prices", "statement": "In f64, for all prices up to 2^900 in magnitude (not only whole ticks), every bar and however long the history: True Range and Change are within one rounding of the exact value; the rate of change within 3; hl2, hlc3 and ohlc4 of non-negative prices within 4; Balance of Power within 4; the Stochastic and Williams %R within 5 (plus at most 101 underflows of 2^-1075), whenever the exact value does not exceed 2^960; the Donchian upper and lower lines are exactly the highest high and lowest low, the middle line within 2 roundings. The decision whether there is a value at all is exactly that of the real formula: the output is missing exactly when the reference value is 0 (Change, Roc) or the range is empty (Balance of Power, Williams), and held from the bar before by the Stochastic. Within 5 roundings means a relative error below 2^-49.", "quantifier": "every length, every series of prices up to 2^900, every bar", "why_tests_cant": "the claim compares the computed value with an exact real number, for all f64 prices.", "anchors": ["pace/src/ta/change.rs: Change::next", "pace/src/ta/rate_of_change.rs: Roc::next", "pace/src/ta/stoch.rs: Stoch::next", "pace/src/ta/true_range.rs: Tr::next", "pace/src/common/src.rs: Src::next", "pace/src/content/balance_of_power.rs: BalanceOfPower::next", "pace/src/content/donchian_channels.rs: DonchianChannels::next", "pace/src/content/williams_percent_range.rs: WilliamsPercentRank::next"]}
{"id": "C124", "title": "Indicators built on exponential averages do not drift in f64", "statement": "In f64, for all prices of magnitude at most M (2^-900 <= M <= 2^890), lengths 2 to 2^32 and however long the history: Average True Range is within (length + 1) * M / 2^46 of the exact average of the exact true ranges at every bar (so the error does not grow with the number of bars); the default MACD line and signal are within M / 2^43 and M / 2^42 of the exact ones; and, writing e = (length + 1) * M / 2^46, the Relative Strength Index is finite and within 200 e / (up + down) + 2^-44 of the exact index 100 up / (up + down) at every bar whose exact average gain and loss, up and down, sum to at least 4 e. Each output is present at exactly the bars at which the exact quantity is defined.", "quantifier": "every length, every series of prices of magnitude at most M, every bar", "why_tests_cant": "the claim bounds the distance to an exact real number, for every series however long.", "anchors": ["pace/src/ta/average_true_range.rs: Atr::next", "pace/src/ta/relative_strength_index.rs: Rsi::next", "pace/src/ta/running_moving_average.rs: Rma::next", "pace/src/content/macd.rs: Macd::next"]}
{"id": "C125", "title": "A power-of-two change of price unit changes nothing but the unit, bit for bit", "statement": "In f64, for every k >= 0 and all prices that are zero or between 2^-448 and 2^900 / 2^k in magnitude (decimal prices included): multiplying every price by 2^k multiplies each output of Sum, Sma, Wma, Change, Highest, Lowest, True Range and the Donchian channels by exactly 2^k, and leaves each output of the rate of change, percent rank, Stochastic, Balance of Power, Williams %R, Chande Momentum Oscillator, Ultimate Oscillator and the price oscillator over two simple averages exactly the same, with the same missing outputs, at every bar of every history of up to 2^43 bars (Wma lengths up to 2^17, Chande momentum lengths from 2). The exponential and running averages of any length up to 2^32 of positive prices (any number of missing ones first) are multiplied by exactly 2^k as well, and the price oscillator over any two simple, exponential or running averages of such prices stays the same. The awesome oscillator and the MACD line over any two simple, exponential or running averages of positive source prices, and the Average True Range of bars none of whose true ranges is zero, are multiplied by exactly 2^k. For backtests: trading one share at a time, with the capital multiplied too, gives the same trades at the multiplied prices and multiplies every amount (equity, net, open, gross, per-side) by exactly 2^k with the same counts; trading the whole equity, with the capital unchanged, buys exactly 2^-k times as many shares and leaves every profit, the equity and every other metric the same, bit for bit. (False of other factors: quoting 10.50 and 10.55 ten times higher changes the computed rate of change.)", "quantifier": "every k, every length, every f64 history of prices of ordinary size, every signal history and fill mode", "why_tests_cant": "the claim relates two runs for every history and every k, bit for bit.", "anchors": ["pace/src/ta/sum.rs: Sum::next", "pace/src/ta/simple_moving_average.rs: Sma::next", "pace/src/ta/weighted_moving_average.rs: Wma::next", "pace/src/ta/change.rs: Change::next", "pace/src/ta/rate_of_change.rs: Roc::next", "pace/src/ta/percent_rank.rs: Prank::next", "pace/src/ta/highest.rs: Highest::next", "pace/src/ta/lowest.rs: Lowest::next", "pace/src/ta/stoch.rs: Stoch::next", "pace/src/ta/true_range.rs: Tr::next", "pace/src/content/balance_of_power.rs: BalanceOfPower::next", "pace/src/content/donchian_channels.rs: DonchianChannels::next", "pace/src/content/williams_percent_range.rs: WilliamsPercentRank::next", "pace/src/content/chande_momentum_oscillator.rs: ChandeMomentumOscillator::next", "pace/src/content/price_oscillator.rs: PriceOscillator::next", "pace/src/ta/exponential_moving_average.rs: Ema::next", "pace/src/ta/running_moving_average.rs: Rma::next", "pace/src/content/ultimate_oscillator.rs: UltimateOscillator::next", "pace/src/ta/average_true_range.rs: Atr::next", "pace/src/content/awesome_oscillator.rs: AwesomeOscillator::next", "pace/src/content/macd.rs: Macd::next", "pace/src/strategy/strategy.rs: Strategy::next", "pace/src/strategy/trade.rs: trade_pnl"]}
{"id": "C126", "title": "Performance reports under a power-of-two split, bit for bit", "statement": "In f64, for every k >= 0 and every market whose prices are zero or between 2^-448 and 2^900 / 2^k in magnitude, multiplying every open, high, low and close by 2^k has exactly this effect on the reports, at every bar: trading the whole equity with the same capital, the TradingView report is the same in every field and every history, and the Cobra report is the same in every figure but the intra-trade drawdown (which is money divided by a price, C108); trading one share at a time with the capital multiplied by 2^k as well, every figure of the Cobra report is the same, and in the TradingView report every amount and every history is multiplied by exactly 2^k while every percentage, ratio and count is the same, but for the Sharpe and Sortino ratios, which subtract a risk-free rate from money (C108).", "quantifier": "every k, every market of ordinary prices, every signal history, fill mode and risk-free rate, every bar", "why_tests_cant": "the claim relates two whole runs for every history, bit for bit.", "anchors": ["pace/src/strategy/metrics/tradingview_metrics.rs: TradingViewMetrics::next", "pace/src/strategy/metrics/cobra_metrics.rs: CobraMetrics::next", "pace/src/strategy/metrics/equity_metrics.rs: EquityMetrics::next", "pace/src/strategy/strategy.rs: Strategy::next", "pace/src/strategy/trade.rs: Trade, trade_pnl"]}
{"id": "C127", "title": "What the figures of a report can be", "statement": "In f64, for any prices (NaN, infinities and gaps between bars included), capital and sizing: gross profit and gross loss are numbers, never NaN and never negative; every winning trade is at most the gross profit and every losing trade's size at most the gross loss; each is zero exactly when no trade won (lost). Up to 2^53 closed trades the average winner and loser are numbers, not negative and at most the gross figure. The profit factor and the win/loss ratio are not negative and are NaN only when both figures divided are infinite. Maximum drawdown and run-up are numbers, not negative; the drawdown percentage is not negative when the capital is positive. Sharpe and Sortino are not shown negative when the mean is not below the risk-free rate and not shown positive when it is not above it; Omega, Cobra's profit factor and its intra-trade drawdown are not negative; percent profitable is between 0 and 1. Cobra's equity drawdown is never NaN and never positive, is at least -1 while the equity is not negative, and (equities finite) is 0 exactly when the equity never fell below an earlier value. On a bar with low <= close <= high and an open trade the equity is within the bar's band, whatever the rounding.", "quantifier": "every market, signal history and configuration, every bar", "why_tests_cant": "the bounds must hold for every market, with rounding, overflow and NaN.", "anchors": ["pace/src/strategy/metrics/tradingview_metrics.rs: TradingViewMetrics::next", "pace/src/strategy/metrics/cobra_metrics.rs: CobraMetrics::next", "pace/src/strategy/metrics/equity_metrics.rs: EquityMetrics::next", "pace/src/strategy/metrics/common.rs: profit_factor, avg_winning_trade, avg_losing_trade, sharpe_ratio, sortino_ratio, omega_ratio, max_drawdown_percent", "pace/src/strategy/strategy.rs: Strategy::next"]}
{"id": "C128", "title": "More ranges that rounding cannot break, and three that it does", "statement": "In f64, for any feed and any multiplier that is not negative, the upper Bollinger band is never below the lower; %B of a price inside the bands is NaN or between 0 and 1, of a price at or above the upper band NaN or at least 1, of a price at or below the lower band NaN or at most 0, and a number whenever the price and the bands are at most 2^1022 in size; the band width is NaN or not negative over a positive average, NaN or not positive over a negative one. The Relative Volatility Index of a feed without gaps is NaN or between 0 and 100. The Relative Vigor Index (exact range [-1, 1]), the Chaikin Money Flow (same) and the Ultimate Oscillator (exact range [0, 100]) do leave their ranges, on bars with prices of one decimal: -9, -4 and -425, because their running sums keep the rounding residues of bars that have left the window.", "quantifier": "every length, multiplier, context and feed of f64 values (NaN and infinities included); the escapes are concrete", "why_tests_cant": "the bounds must hold at every bar of every history, with rounding and overflow; tests on a fixture see one history.", "anchors": ["pace/src/content/bollinger_bands_pb.rs: BollingerBandsPercentB::next", "pace/src/content/bollinger_bands_width.rs: BollingerBandsWidth::next", "pace/src/content/relative_volatility_index.rs: RelativeVolatilityIndex::next", "pace/src/content/relative_vigor_index.rs: RelativeVigorIndex::next", "pace/src/content/chaikin_money_flow.rs: ChaikinMoneyFlow::next", "pace/src/content/ultimate_oscillator.rs: UltimateOscillator::next", "pace/src/ta/sum.rs: Sum::next"]}
{"id": "C129", "title": "Which columns of the data each part reads", "statement": "What a component outputs - and whether it panics - depends on no other column of the market data than these: nothing for the components and signals that only take an input; high for the highest-bar, low for the lowest-bar offset; high and low for Aroon and the Donchian channels; high, low and close for the true ranges, the Chande Kroll Stop, the Choppiness Index, the DMI, the Ultimate Oscillator and the Vortex; open, high, low and close for the Balance of Power and the Relative Vigor Index; high, low, close and volume for the Chaikin Money Flow; for an indicator built from sources and averages, what those read (a source reads the columns it is named after), plus high and low for Williams %R and the volume for the volume oscillator; open and close for a back-test; high and low besides for its reports; bar times for the Cobra report only, and only with a start year. Two data sets with the same values in those columns give the same results bar by bar, whatever the other columns hold - other values, holes, another length. None of the lists of columns can be shortened.", "quantifier": "every number type, every pair of contexts at the same bar whose data agree on the listed columns, every length and configuration, every user-supplied source and average, every feed", "why_tests_cant": "a test compares two data sets; that a column has no influence is a claim about all of them.", "anchors": ["pace/src/core/context.rs: Context, Bar", "pace/src/common/src.rs: Src::next", "pace/src/content/aroon.rs: Aroon::next", "pace/src/content/donchian_channels.rs: DonchianChannels::next", "pace/src/content/chaikin_money_flow.rs: ChaikinMoneyFlow::next", "pace/src/content/williams_percent_range.rs: WilliamsPercentRank::next", "pace/src/content/volume_oscillator.rs: VolumeOscillator::next", "pace/src/ta/true_range.rs: Tr::next", "pace/src/strategy/strategy.rs: Strategy::next", "pace/src/strategy/metrics/cobra_metrics.rs: CobraMetrics::next", "pace/src/strategy/metrics/tradingview_metrics.rs: TradingViewMetrics::next"]}
{"id": "C130", "title": "A higher last price is never held against the market", "statement": "In f64, take two histories that differ only in the last price, the second one at least as high (both finite). Then Change, the rate of change (old prices not negative), the RSI (warm-up values leading only), the stochastic, Williams %R and the Balance of Power (same highs and lows, numbers, the last low not above the last high) and the percent rank end, over the second history, in a value that is not the smaller one - either may be NaN - and are both missing or both present; and they panic on both or on neither. No rounding, underflow or overflow inverts the order. Where the lower value crosses above another value or a threshold, so does the higher one; where the higher one crosses below, so does the lower one.", "quantifier": "every history of f64 values (holes, infinities and NaN included where not excluded above), every pair of finite last prices in order, every length >= 1 (RSI >= 2; RSI and percent rank: up to 2^53), every context, every source", "why_tests_cant": "a test compares two prices; monotonicity under rounding is a claim about all pairs, and near-equal prices or near-zero ranges, where rounding could invert the order, are not sampled.", "anchors": ["pace/src/ta/change.rs: Change::next", "pace/src/ta/rate_of_change.rs: Roc::next", "pace/src/ta/relative_strength_index.rs: Rsi::next", "pace/src/ta/stoch.rs: Stoch::next", "pace/src/ta/percent_rank.rs: Prank::next", "pace/src/content/williams_percent_range.rs: WilliamsPercentRank::next", "pace/src/content/balance_of_power.rs: BalanceOfPower::next", "pace/src/ta/cross_over.rs: CrossOver::next", "pace/src/ta/cross_under.rs: CrossUnder::next", "pace/src/ta/cross_over_threshold.rs: CrossOverThreshold::next", "pace/src/ta/cross_under_threshold.rs: CrossUnderThreshold::next"]}
{"id": "C131", "title": "Averages superpose, and a revised price moves them by a known amount", "statement": "In exact arithmetic the sum, the simple, linearly weighted and symmetrically weighted means and the two exponential averages of a blend (a units of one series plus b units of another, missing at the same bars) are, bar by bar, the same blend of the averages of the two series: the average of a portfolio is the portfolio of the averages. And changing the price of one bar by d changes every later value by exactly: d in the sum and d/length in the simple mean while the bar is among the last length ones and nothing before or after; d times the weight of its age in the weighted mean; alpha(1-alpha)^k d in an exponential average k bars later (bars after the first length ones), or (1-alpha)^k d/length k bars after the first reported value (bars among the first length ones); no value appears or disappears.", "quantifier": "all real series (with gaps at common places for the windowed averages; gap-free after any warm-up for the exponential ones), all weights a and b, all lengths, all positions of the revised bar and all revisions d", "why_tests_cant": "linearity and the exact response to one changed input are statements about all pairs of series and all positions; tests compare a few outputs with golden values.", "anchors": ["pace/src/ta/sum.rs: Sum::next", "pace/src/ta/simple_moving_average.rs: Sma::next", "pace/src/ta/weighted_moving_average.rs: Wma::next", "pace/src/ta/symmetrically_weighted_moving_average.rs: Swma::next", "pace/src/ta/exponential_moving_average.rs: Ema::next", "pace/src/ta/running_moving_average.rs: Rma::next"]}
{"id": "C132", "title": "Volumes may be counted in any unit", "statement": "In exact arithmetic, counting every volume in another unit (shares, lots, hundreds: all volumes times one positive factor) changes no output of the Chaikin Money Flow of any length and none of the volume oscillator over any two averages (simple, exponential, running or symmetrically weighted) of any two lengths, its default configuration included: the same values at the same bars, missing at the same bars. In f64, when the factor is a power of two (1, 2, 4, ...) and the volumes are zero or between 2^-448 and 2^900 before and after, the volume oscillator over two simple averages of any two lengths gives the same values bit for bit; when the volumes are all positive, so does the volume oscillator over any two simple, exponential or running averages of lengths up to 2^32, the default one included.", "quantifier": "every history of real prices and volumes, every positive factor, every length and every pair of averages", "why_tests_cant": "a test compares two data sets in two units; invariance is a claim about all data and all factors.", "anchors": ["pace/src/content/chaikin_money_flow.rs: ChaikinMoneyFlow::next", "pace/src/content/volume_oscillator.rs: VolumeOscillator::next"]}
