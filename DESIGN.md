# Formal model of nersent/pace in Rocq (Coq 8.16.1)

## 1. What is modelled

`rocq/theories/M*.v` is the model: small, total, computable Gallina functions, one per Rust
function, each with a comment citing file and lines under `/repo/pace/src`.

| file | Rust code |
|---|---|
| `Base.v` | result monad (`Ok`/`Panic`), checked `usize` subtraction, `unwrap`, indexing, slicing, `as i32/i64` |
| `Num.v` | the `f64` operations used by the code, as an interface |
| `MCore.v` | `core/context.rs`, `core/in_memory_data_provider.rs`, `core/incremental.rs`, the `for _ in ctx` loop |
| `MShare.v` | `Context::clone` / `Rc<Cell>` sharing, as a heap of cells |
| `MShare2.v` | several components owning clones of one context, the loops of `example/src/main.rs` and `benchmarks/pace/src/main.rs` over that heap |
| `MCommon.v` | `common/*`, `core/timeframe.rs`, `pinescript/common.rs` |
| `MStats.v` | `statistics/*` |
| `MTesting.v` | `testing/comparison.rs`, `testing/array_snapshot.rs`, cell conversions of `polars/*` |
| `MTa.v` | `ta/*` (all of it) |
| `MStrategy.v` | `strategy/strategy.rs`, `strategy/trade.rs` |
| `MMetrics.v` | `strategy/metrics/*` (computations) |
| `MReport.v` | the colour decisions of `print` / `print_overview`, the labels and markers of `Trade` |
| `MPrint.v` | the text of the printed tables: `utils/string.rs`, the rows of `print_summary`, `print_overview`, `print`; fixed-point formatting of f64 (library code) |
| `MFixture.v` | golden-file tests: `testing/fixture.rs` (`load_ctx`, `test_target`, `test_trade_dir_target`), `Series::to_trade_dir`, the test loop of `content/tests/*.rs` |
| `MPlot.v` | charts: `TradingViewMetricsData::text_plot` and `plot_*` up to the call of textplots, in f32 |
| `MProgram.v` | `polars/in_memory_data_provider.rs`, format dispatch of `polars/io.rs`, `example/src/main.rs` |
| `MContent.v` | `content/*` (all 24 indicators and their strategies, default configurations) |

Not modelled: table borders, column widths and the drawing done by textplots (the points it receives are in `MPlot.v`), polars' own reading, writing and casts, `Duration::from_secs_f64` (an arbitrary function in `MProgram.v`), chrono
internals (a Gregorian-year function is used instead, see `MMetrics.v`), the timing code of `benchmarks`, tests, and code that
is not in the crate's module tree (`strategy/strategy_context.rs`, `utils/polars.rs`).

### Modelling decisions

* **Panics** are the value `Panic`. A run is `Panic` if any call panics.
* **`usize`** is `nat` with checked subtraction (the overflow-check build); counters never reach 2^64.
  Theorems concluding `Ok` hold of the release build too.
* **`f64`** is abstract: the model is written once over a class `Num F` and used at two instances.
  `IEEE.v` is binary64 with round-to-nearest-even, built on Flocq's `BinarySingleNaN` (one NaN, so payload and sign of
  NaN are not modelled; `log10` is an arbitrary function). `Exact.v` is real arithmetic extended with
  infinities and NaN (no rounding, one zero). A theorem for every `Num F` holds bit for bit of the f64
  program. A theorem at `Exact` says the algorithm is right up to rounding. A theorem at `IEEE` speaks of
  the f64 program itself.
* **Components** (`impl Incremental`) are `step : ctx -> S -> I -> res (S * O)`; `run` feeds a list of
  inputs, the context moving one bar between calls. Properties are stated about `run`, i.e. about complete output histories.
* **`Box<dyn Incremental>`** is a coinductive object `obj`, so theorems about composites quantify over
  every possible source / moving average, not only those in the crate.
* **Sharing**: a `ctx` value is what all clones see at one moment; that clones do share is proved in the heap model `MShare.v`.
* `f64::max/min` on zeros of opposite sign, which Rust leaves unspecified, returns the first argument.
* `powi(2)`/`powf(2.0)` is the rounded product. `iter().sum()` starts from `+0.0` (newer Rust starts from `-0.0`, which can only change the sign of a zero).

## 2. Statements

`Spec.v` contains the specification vocabulary, independent of the model's helpers: `each_prefix f xs`
(the list of `f` applied to every non-empty prefix of the input), `lastn`, `all_some`, textbook sums and
means. A component theorem has the shape
`run_new (new cfg) step c xs = Ok (each_prefix spec xs)`: it fixes every output of every history, which
includes absence of panics. Property theorems live in `Prop*.v`, next to
examples showing that a concrete non-trivial case meets their hypotheses.

Where the code violates the natural statement, the theorem is named `..._refuted` and gives a witness; the
true part is then proved with suffix `_partial`.

## 3. Plan per property

| id | modelled as | proof |
|---|---|---|
| C01 | `loop` over `ctx_new` | induction on remaining bars; `loop = run` |
| C02 | `MShare` heap | induction over operation sequences, view equality |
| C03 C04 | `ctx_prev`, `ctx_range`, `provider_*` | list slicing lemmas |
| C05 C06 | push histories of the caches | fold over pushes |
| C07 C08 | `fixnan_step`, `position_step`, `wv_step` | history invariants |
| C09 C10 | `sma_step`, `sum_step` | running-sum invariant: generic definedness, value at `Exact` |
| C11 C12 | `ema_step`, `rma_step` | recurrence as a fold over the history |
| C13 | same at `Exact` | convexity, induction |
| C14 C15 C16 C17 | `wma/swma/change/roc` | window lemma, generic closed form |
| C18 C19 | `highest/lowest(+bars)` | `find_loop` invariant, order laws, both instances |
| C20 | `dev/stdev` | on top of C09 at `Exact` |
| C21 | `prank` | counting; f64 range at `IEEE` |
| C22 | `rsi` | pipeline over C12; range at `IEEE` by sign propagation |
| C23 C24 | `stoch`, `tr`, `atr` | window lemma; order laws |
| C25 | `cross*` | history = adjacent pairs |
| C27 | `obj`, `ma_new` | coinduction-free: `run` of a box = `run` of the component |
| C28-C35 | `strategy_step` | one inductive invariant over the signal history + refinement to an order list |
| C36 | encoders | case analysis |
| C37-C40 | `equity_step`, `tv_step`, `cobra_step` | running-extremum invariants over the strategy run |
| C41 C42 | `mean/var/welford` | induction over the sequence; field arithmetic at `Exact` |
| C43 | `normalization.rs` | order laws, both instances |
| C44 C45 C46 C75 | comparators, `ps_*`, `Src`, cells | case analysis, induction on lists |
| C47 C48 | `aroon` | on top of C19; automaton over crossings |
| C49 C50 | strategies | on top of C25 |
| C51-C68 | indicators | pipeline equation (generic, bit-exact), then closed form and range at `Exact` |
| C26 | `component` (SpecCatalogue): every constructor/`next` pair of the library, closed under piping | congruence: two contexts with the same bars up to a tick give the same runs |
| C69 | every indicator with every configuration | totality on gap-free data from the pipeline equations; the one exception (Relative Volatility Index with a short average) is refuted for all remaining parameters (`C69_refuted`) |
| C70 | running sums at `IEEE` | window components whose output is a function of the window: proved; Sum/Sma: refuted, and proved that a bad value poisons them for good |
| C71 | runs from any start tick | components with their own fill counter: proved; those using the absolute bar index: refuted for every start tick and length > 1 |
| C72 | `returns_next` | what it really reports is proved; the English property is refuted (the previous value is never stored) |
| C73 | `year_of_days` | arithmetic proof against day counts of years |
| C74 | `Exact` | closed forms of the components commute with affine maps |
| C76 | `scale_value_min_max` | exact for a minimum <= 0; refuted for a positive minimum |
| C77 | `cmp_pair_opt` | what it accepts is characterised; the English property is refuted (second component ignored) |
| C78 C87 C88 | context, constructors, `find_index` | case analysis; loop invariant over the scanned prefix |
| C79-C84 | pairs of `strategy_step` runs | one position-by-position simulation of the two order books, generic where possible |
| C85 C86 | `strategy_step` at `Exact` | step equation of the equity from the book invariant; induction over the trades |
| C89 | `metered` runs | totality of every step from the book invariant |
| C90 C91 | `cobra_step`, `equity_step` | running-extremum invariants per trade; C91 is refuted in non-continuous mode |
| C92 | `cobra_step` at `Exact` | Welford's recurrence = sample variance, invariant over the run |
| C93 | `example_main` | `loop = run`, then the run theorems of RSI, threshold strategy, order book and metrics composed |
| C94 | `from_df` over a list of named columns | case analysis, induction over the time column |
| C95 | `cobra_print`, `tv_print_overview` | order laws; refuted for two drawdown cells |
| C96 | `to_colored_string`, `get_triangle` | on top of C28's trade invariant |
| C97 | `*_default` | instances of the closed forms with the documented lengths |
| C98 | `ema_step`, `rma_step` at `IEEE` | error of one smoothing step contracts; induction over the history with Flocq's rounding error lemma |
| C99 | `sum_step`, `sma_step` at `IEEE` | error of the running sum by induction, growing with the history; refuted for an unbounded history by absorption |
| C100 | `pipe_step` over indicators, signal components, `strategy_step`, metrics | `run` of a pipeline = composed runs; totality of each stage from C69, C89 |
| C101 C102 | `h_loop`, `h_drive` over the heap of cells | the heap loop refines one `run` per component, induction over the remaining bars |
| C103 | the exact-arithmetic closed forms of C74 under x -> m - x; book of C79-C82 with directions exchanged | affine algebra (slope -1) plus max/min duality; simulation of the opposite book |
| C104 | closed form of the smoothed averages (C11, C12) | the recurrence is affine in the start: induction over the common part; f64 by the triangle inequality from C98 |
| C105 | exact closed forms; IEEE operations with overflow and NaN (`PMono`) | every IEEE rounding is monotone, so every chain of additions, scalings and divisions by unsigned constants is |
| C106 | first bar with a value, for each component, over every complete series | closed forms per component; `fstarts`/`fsilent` compose through averages and pairs (`PropWarm`). The Relative Volatility Index is left to C64/C69: it can panic |
| C107 | f64 with overflow and NaN; signs and order of each operation (`PMono`, `PIeee`) | monotone rounding bounds every chain by its value at the end points, which is computed exactly; counterexamples by kernel evaluation on concrete floats |
| C108 | exact instance, all values incl. infinite and undefined; prices times p, sizes times z | one bar of the strategy, the equity tracker and both reports commutes with the change of units, panics included; induction over the run; the two unit-dependent figures (risk-free rate, intra-trade drawdown) on f64 runs |
| C109 | f64 instance: WelfordsVar, WelfordsStdev, Var and Stdev in both modes | rounding analysis of one Welford step (the mean moves towards the value and not past it), induction over the run; slow form as a sum of squares; overflow and constant-series witnesses on f64 runs |
| C110 | f64 figures as text: `MPrint.v`, Rust's fixed-point formatting and the rows of the three printed tables | a reader of decimal text (specification) applied to the printed text gives ZnearestE of the figure; digit-string induction; composed with C30 and C39 for backtests |
| C111 | fixtures: `MFixture.v` on top of `MProgram.v` (frames), `MTesting.v` (comparison) and the test loop | the loop's outputs are the component's run over the frame's bars; composed with C44 (comparison), C22/C49 (RSI and its signals), C94 (loading) |
| C112 | the f64 strategy, equity metrics and TradingView metrics against the same functions over exact reals | simulation: whole-tick amounts stay whole ticks below 2^53, so every addition, subtraction, minimum and maximum is exact; quotients are one rounding; composed with C28, C30, C31 (meaning of the figures) and C110 (printing) |
| C113 | Sum, Sma, Change, Roc, CMO, Vortex, balance of power, Donchian, Williams %R in f64 against the same functions over exact reals | the running sum of a window of whole ticks is a whole number of ticks below 2^53, so every addition and subtraction is exact (induction over the history, bound re-established from the exact window sum); quotients are one rounding; composed with the exact theorems C51–C56, C67 |
| C114 | `MPlot.v`: f32 (Flocq binary32), `text_plot` and the three `plot_*` functions up to the call of textplots | correctness of Flocq's normalisation and addition; monotone rounding; composed with C38 (what the histories hold) |
| C115 | the strategies over Sma lines, CMO, BOP, Williams %R and Vortex in f64 against signals of exactly computed values (`real_signals`, `line_signals`) | two different rationals with the given denominators are further apart than the rounding errors, equal ones round to the same f64, and the thresholds are hit exactly; composed with C113, C49, C50 for the signals and C100, C112 for backtests; counterexample with decimal prices |
| C116 | `strategy_step`, `trade_pnl`, `fill_size` at IEEE; the price move of a trade read off its two prices (`in_favour`, `against`) | a difference of two floats never rounds to zero or the wrong side; multiplying by the size keeps the sign while it does not underflow, by ±1 exactly; monotone operations (PMono) for the rest; counterexample with a size that rounds to zero |
| C117 | `highest_step`, `lowest_step`, `aroon_step`, `prank_step` over any ordered numbers; `rsi_step`, `sma_step`, `cross_strategy_step` at IEEE | the position of an extremum in a chain is an end of the window (`ext_first`, `ext_last`); losses of a rising series are zeros whose smoothing is +0, gains stay at least 2^-953 through sums, division and smoothing; means of nested windows of a rising series are ordered, then C115_cross |
| C118 | every indicator with its strategy, at any ordered numbers, at the exact numbers and at IEEE | a steady value crosses nothing (`C118_thresholds`, `C118_lines`, …); each indicator over a constant series is computed in closed form (`flat_*` exact, `any_*` in any format, `rsi_flat64`, `cmo_flat64` in f64); Relative Volatility Index left out, it panics (C69); `C118_macd_f64` shows that rounding refutes the claim for the averaged ones in f64 |
| C119 | `strategy_step`, `tv_step`, `mean_step` at IEEE | one addition, product and quotient against the real ones (`plus_rel`: additions do not underflow), induction over the list of trades (`C119_sum`, `sum_of_near`), then C28, C30, C31 and C39 |
| C120 | every value-fed component and the indicators that need no complete bars | the `*_makes` and `*_run` results that hold for every history; Ema/Rma panics (C11, C12); the Rsi as two averages of changes (`rsi_two`); averages never stop once started (`ema_rec_warmed`), hence MACD; the inner Src or Tr of an indicator decides its panics (`inner_ok`) |
| C121 | `strategy_step` | the book of C29: an order that changes the book leaves its tick there (`place_marks`), so agreeing at those ticks is enough (`book_local`); relabelling ticks commutes with the book (`book_sim`); leading silent bars give no orders (`orders_wait`) |
| C122 | `wma_step`, `swma_step` in f64 | the output is the fold over the window (`wma_run`, `swma_run`); the fold is a `total` of products, weights exact integers below 2^53 (`norm_exact`), error by C119's growth count; finiteness by grid bounds (`total_bounded`) |
| C123 | `change_step`, `roc_step`, `stoch_step`, `tr_step`, `src_step`, `bop_step`, `don_step`, `wpr_step` in f64 | every moderate f64 is a whole number of ticks of 2^-1074, so the extremes of C113 apply (`extrema_moderate`); differences and products by 100 have a purely relative error (`sub_accurate`, `times_accurate`), quotients add one underflow (`quotient_accurate`) |
| C124 | `atr_step`, `rsi_step`, `macd_default` in f64 | an exact exponential average never amplifies the differences between its inputs (`Rsmooth_within`), so the error of the true ranges / moves / lines passes through once and is added to the drift bound of C98; the RSI formula is analysed for division by zero, overflow of the quotient and the ordinary case (`rsi_computed`) |
| C125 | window indicators, oscillators and the strategy in f64 | rounding commutes with a multiplication by 2^k (`rn_scale`: normal numbers, and exact subnormal ones), and all amounts of an indicator over prices of ordinary size stay on a 2^-500 grid far from overflow (`room`), so each operation maps scaled operands to the scaled result (`sc_add`, `sc_sub`, `sc_mul`, `sc_divz`); induction over the running sums and the order book; an exponential average of positive values is squeezed between its smallest and largest value (C110), so it stays of ordinary size; differences of averages scale exactly because a difference of two doubles is never a rounded subnormal (`ex_sub`) |
| C126 | `tv_step`, `cobra_step`, `equity_step`, `strategy_step` in f64 | two metered runs simulated bar by bar (`metered_sim`); the states of the two strategies are related by C125, the events of a bar by C34, and each figure by the scaling lemmas of C125 |
| C127 | `tv_step`, `cobra_step`, `equity_step`, `strategy_step` in f64 | sums of floats that are not negative only grow (`plus_grows`); monotonicity of rounded +, *, / ; a quotient of two different floats does not round to 1 (`quot_gap`); the formulas come from C30, C37-C40, C72, C90 |
| C128 | `bbpb_step`, `bbw_step`, `rvoli_step`, `rvgi_step`, `cmf_step`, `uo_step` in f64 | rounded operations are monotone and keep signs (`share_high`, `share_sign`); only zeros have left the seeding window of the volatility averages (`racc_pz`); the three escapes are computed by the kernel |
| C129 | every `*_step` of MTa, MContent, MStrategy and MMetrics, the boxed sources and averages (`obj`) | steps without an object compute alike on contexts that agree on the columns (by conversion); objects by coinduction (`reads`), indicators holding them by an invariant on the state; minimality by kernel-computed runs on six bars changed in one column |
| C130 | `change_step`, `roc_step`, `rsi_step`, `stoch_step`, `wpr_step`, `bop_step`, `prank_step`, the cross detectors over `IEEE` | monotonicity of each rounded operation (PMono), with the sign of every denominator established first; the RSI through `smooth_ordered` on its gains and losses and `quot_mono`: a quotient of two amounts grows with the first and falls with the second, infinities included |
| C131 | `sum_step`, `sma_step`, `wma_step`, `swma_step`, `ema_step`, `rma_step` over the exact numbers | the specifications `Rsum`, `Rmean`, `Rwmean`, `Rswmean`, `Rsmooth` are linear on lists of equal length; a revision is the original plus a spike (zeros and one `d`), whose averages are computed for every position |
| C132 | `cmf_step`, `vo_step` with `ma_new` and `ostep` over the exact numbers | CMF: its closed form (C54) on both histories, window sums scale; VO: by C58 it is a quotient of two averages of the volumes, each of which scales by C74's lemmas, and the quotient does not; in f64 (`C132_volume_oscillator_f64`) the difference of two exactly scaled averages is scaled exactly (`ex_sub`) and ratios are unchanged; exponential averages of positive values stay between 2^-500 and 2^980 (`mid_step`: the weights are in [2^-33, 3/4] and [1/4, 1 - 2^-33]), so no product underflows and each step scales exactly |

## 4. Trusted base

* Coq 8.16.1's kernel (including `vm_compute`, used in closed examples and witnesses), `coqc`, and the standard library.
* Flocq (`BinarySingleNaN`) as the definition of binary64 arithmetic: its definitions are trusted to be IEEE 754,
  its lemmas are proved, no axiom of it is used.
* The reading of the Rust source in `M*.v` (section 1), i.e. that each definition says what the cited lines do. In particular:
  rustc, `f64` operations being IEEE binary64 with round-to-nearest-even and no fused operations, `powi(2)`/`powf(2.0)` being the rounded product,
  `Iterator::sum` adding from the left starting from 0, `f64::max/min` on equal arguments, `f64::log10` (arbitrary function), polars casts and chrono.
* No axiom of ours. `Print Assumptions` lists only axioms of Coq's standard library:
  * `ClassicalDedekindReals.sig_forall_dec`, `ClassicalDedekindReals.sig_not_dec` (the construction of the reals),
  * `FunctionalExtensionality.functional_extensionality_dep` (used by the construction of the reals),
  * `Classical_Prop.classic` (used by Flocq and by the theory of reals).
  They enter through `R` only: theorems for every `Num F` do not use them.

### What is not modelled

* Table borders, column widths and how textplots draws the points (colours are in `MReport.v`, cell texts in `MPrint.v`; Rust's float formatting is taken to be correct rounding, ties to even, with a sign on negative zero).
* polars file I/O and casts (a column is a list of optional numbers), chrono (Gregorian year function instead).
* NaN payloads and the sign of NaN; signed zeros are modelled in `IEEE`, not in `Exact`.
* Memory use, allocation failure, integer overflow of counters beyond 2^64.
* The timing code of `benchmarks`, tests, and files outside the crate's module tree.

## 5. Print Assumptions per theorem

Generated from `Print Assumptions` of every `Cxx_` theorem and example of `Prop*.v`.

**Closed under the global context (no axioms)** (305):
* `PropBacktest`: C79_no_signal, C80_capital, C84_repeats, C84_quiet_ex
* `PropBand`: C91_band, C91_tradingview, C91_cobra, C37_open_band, C90_adverse
* `PropContent1`: C47_aroon, C47_zero_age, C49_oscillator_strategies, C49_default_thresholds, C49_stoch_rsi_strategy, C49_williams_strategy, C49_williams_default, C49_macd_strategy, C50_line_cross, C50_dmi_strategy, C50_dmi_default_threshold
* `PropContent2`: C51_channels, C51_encloses, C52_williams, C53_bop, C54_cmf, C55_cmo
* `PropContent3`: C56_ultimate, C57_dmi, C57_one_direction
* `PropContent4`: C58_macd, C58_awesome, C58_price, C58_volume, C58_macd_default, C58_awesome_default, C58_volume_default, C58_price_default, C59_bollinger, C60_cci, C61_connors, C62_stoch_rsi
* `PropContent5`: C63_vigor, C64_volatility, C64_no_panic, C65_stops, C66_choppiness, C67_vortex, C68_coppock
* `PropCore`: C01_iterator, C01_body_sees_every_bar_once, C01_loop_is_run, C01_empty_range_rejected, C02_clones_share, C02_second_loop_is_empty, C03_lookback, C03_windows, C04_new, C04_from_values, C05_window_cache, C06_incremental_cache, C07_fixnan, C07_position, C08_window_validator, C08_zero_rejected, C27_box_transparent, C27_ma_selects, C36_timeframe, C36_opposite, C36_direction, C45_pine, C46_src, C46_src_missing_panics, C75_cells, C75_merge, C75_direction_cells, C01_ex, C05_ex, C06_ex, C08_ex
* `PropDefaults`: C97_connors, C97_stoch_rsi, C97_volatility
* `PropExtra`: C78_metadata, C78_metadata_kept, C78_is_up, C78_at_length, C87_ta_lengths, C87_ma, C87_indicators, C87_defaults, C88_max_index, C88_min_index, C88_empty, C75_merge_three, C75_merge_four
* `PropFill`: C121_only_fill_prices, C121_and_last_close, C121_fill_modes, C121_waiting
* `PropFixture`: C111_values, C111_directions, C111_rejects, C111_rsi, C111_rsi_strategy
* `PropFlat`: C118_thresholds, C118_lines, C118_dmi_lines, C118_stoch_rsi_lines, C118_aroon_lines
* `PropGaps`: C05_length_zero, C11_with_alpha, C11_with_alpha_panics, C11_with_alpha_one, C48_cross_mode, C48_strength_missing, C49_stoch_rsi_default, C61_streak_first, C87_defaults_rest
* `PropGaps2`: C05_unwrapped, C05_unwrapped_ex, C34_new_trade
* `PropGaps3`: C72_either, C110_line_break
* `PropLook`: C26_same_past_same_run, C26_no_look_ahead, C26_loop
* `PropMetrics`: C37_extremes, C37_band, C38_running_max, C38_monotone, C39_formulas, C40_ratios, C40_drawdown
* `PropMetrics2`: C89_equity, C89_tradingview, C89_cobra, C40_long_short, C90_intra_trade, C90_nonneg, C91_flat_partial, C39_percentages, C72_tradingview_partial, C38_histories, C29_default, C34_queries
* `PropMissing`: C120_values, C120_behind, C120_recursive, C120_rsi, C120_filled, C120_price_oscillator, C120_volume_oscillator, C120_macd, C120_dmi
* `PropPipe`: C100_pipeline, C100_backtest, C101_components, C101_other_context, C102_by_hand, C102_same_as_loop
* `PropPrint`: C110_count
* `PropProgram`: C94_accepted, C94_columns, C94_extension, C93_example
* `PropReads`: C129_sources_and_averages, C129_bars, C129_built, C129_defaults, C129_inputs, C129_reports
* `PropReport`: C95_cobra, C95_tradingview, C95_drawdown_partial, C96_label, C96_marker
* `PropSafe`: C69_no_panic_partial
* `PropStats`: C41_mean, C41_var_slow, C41_stdev_slow, C43_clip_range, C43_clip_id, C43_scale_range, C43_scale_threshold, C44_assert, C44_otherwise_panics, C44_elements, C77_pairs_refuted, C77_pairs_partial, C44_debug, C72_partial, C73_year, C73_filter, C73_total, C73_case
* `PropStrategy`: C28_runs, C28_trades, C28_no_overlap, C28_history_kept, C29_orders, C29_last_signal, C29_timing, C30_totals, C31_equity, C31_close_needed, C31_start, C32_in_market, C32_alternates, C33_signal_effect, C34_events, C35_size
* `PropTa1`: C09_sma_defined, C09_sma_length_one, C09_sma_length_zero_rejected, C10_sum_defined, C11_ema_recurrence, C11_ema_panics_iff, C11_ema_length_one, C11_ema_length_zero_rejected, C12_rma_recurrence, C12_rma_panics_iff, C12_rma_is_ema, C12_rma_length_one, C14_wma_defined, C15_swma_defined, C16_change_partial, C17_roc, C17_roc_length_zero_rejected
* `PropTa2`: C18_highest, C18_lowest, C19_highest_bars, C19_lowest_bars
* `PropTa3`: C21_prank, C22_rsi_defined, C23_stoch, C24_tr, C24_tr_missing_panics, C24_atr, C24_atr_length_one, C24_tr_ge_range, C25_crossover, C25_crossunder, C25_thresholds, C25_cross, C25_between_overs
* `PropTrend`: C117_highest_rising, C117_lowest_rising, C117_highest_falling, C117_lowest_falling, C117_aroon_rising, C117_aroon_falling, C117_prank_rising, C117_prank_falling
* `PropWarm`: C106_sum, C106_ma, C106_averages, C106_dispersion, C106_extrema, C106_changes, C106_rsi, C106_prank, C106_true_range, C106_atr, C106_extreme_bars, C106_donchian, C106_williams, C106_choppiness, C106_money_flow, C106_stops, C106_bollinger, C106_cci, C106_momentum, C106_rsi_indicator, C106_connors, C106_coppock, C106_stoch_rsi, C106_vortex, C106_ultimate, C106_vigor, C106_directional, C106_macd, C106_price, C106_awesome, C106_volume
* `PropWindow`: C70_highest_partial, C70_lowest_partial, C70_wma_partial, C70_swma_partial, C70_prank_partial, C70_change_partial, C70_roc_partial, C71_sum_partial, C71_sma_partial, C71_dev_partial, C71_stdev_partial, C71_change_partial, C71_roc_partial, C71_ema_partial, C71_rma_partial, C71_highest_refuted, C71_lowest_refuted, C71_wma_refuted, C71_swma_refuted, C71_prank_refuted, C71_stoch_refuted

**classic** (1):
* `PropMissing`: C120_bars

**sig_forall_dec, functional_extensionality_dep** (22):
* `PropContent2`: C54_hyp_ex
* `PropContent3`: C56_hyp_ex
* `PropContent4`: C61_streak_rises, C61_streak_falls, C61_moved_ex
* `PropContent5`: C66_hyp_ex
* `PropDefaults`: C97_ex
* `PropError`: C119_plain
* `PropForget`: C105_ex_beside
* `PropGaps`: C48_strength_range, C61_streak_flat
* `PropLinear`: C131_ex_effects
* `PropPrint`: C110_fixed, C110_close, C110_order
* `PropRatio`: C123_plain
* `PropStats`: C41_nonneg
* `PropTa1`: C09_spec_ex, C14_spec_ex, C15_spec_ex
* `PropTa3`: C23_ok_ex
* `PropVolume`: C132_ex_bars

**sig_forall_dec, sig_not_dec, classic, functional_extensionality_dep** (512):
* `PropBacktest`: C79_flat_equity, C81_proportional, C82_fixed_size, C82_equity_size, C83_mirror_f64, C83_mirror, C85_mark_to_market, C86_compounding, C86_long_only, C86_ruin, C79_C86_runs, C79_C86_trades, C86_ex, C86_ruin_ex, C79_flat_equity_f64
* `PropBand`: C91_band_ex
* `PropContent1`: C46_between, C47_value_exact, C47_value_f64, C48_aroon_strategy_exact, C48_aroon_strategy_f64, C48_one_per_cross, C48_ex, C49_ex, C50_ex
* `PropContent2`: C51_exact, C51_ex, C52_exact, C52_ex, C53_exact_range, C53_f64_range, C53_no_overflow, C53_ex, C53_hyp_ex, C54_exact, C54_ex
* `PropContent3`: C55_exact, C55_ex, C56_exact, C56_ex, C57_di, C57_adx, C57_ex, C57_hyp_ex, C57_adx_nan
* `PropContent4`: C58_ex, C59_exact, C59_ex, C59_hyp_ex, C60_exact, C60_ex, C61_range, C61_streak_ex, C61_ex, C62_range, C62_ex, C62_nan_for_good
* `PropContent5`: C63_exact, C63_ex, C64_range, C64_panics, C64_panics_ex, C64_ex, C65_exact, C65_ex, C66_exact, C67_exact, C67_ex, C68_exact, C68_ex
* `PropCore`: C02_ex, C03_ex, C07_ex, C27_ex, C46_ex
* `PropDefaults`: C97_aroon, C97_donchian, C97_williams, C97_money_flow, C97_momentum, C97_ultimate, C97_directional, C97_bollinger, C97_cci, C97_vigor, C97_stops, C97_choppiness, C97_vortex, C97_coppock, C97_rsi, C97_ex64
* `PropDrift`: C122_wma, C122_swma, C122_wma_range, C122_ex
* `PropEma2`: C125_ema, C125_rma, C125_price_oscillator_positive, C132_volume_oscillator_positive, C132_volume_oscillator_default_f64, C125_ema_ex, C125_ema_run, C125_ema_not_three
* `PropError`: C119_sum, C119_totals, C119_equity, C119_tradingview, C119_mean, C119_tenths, C119_cancel, C119_backtest
* `PropExtra`: C78_ex, C88_ex, C41_welford_stdev, C41_welford_stdev_ex, C75_merge_ex
* `PropFigures`: C127_gross, C127_tradingview, C127_tradingview_risk, C127_cobra_risk, C127_drawdown, C127_band, C127_ex, C127_drawdown_ex, C127_band_ex
* `PropFill`: C121_modes_ex, C121_only_ex
* `PropFixture`: C111_rsi_exact, C111_holds, C111_ex, C111_ex_strategy
* `PropFlat`: C118_flat_exact, C118_flat_macd, C118_flat_f64, C118_holds, C118_macd_f64, C118_applies, C118_applies_exact
* `PropForget`: C104_ema, C104_rma, C104_ema_f64, C104_rma_f64, C105_sum, C105_sma, C105_wma, C105_swma, C105_highest, C105_lowest, C105_ema, C105_rma, C105_ema_f64, C105_rma_f64, C105_wma_f64, C105_swma_f64, C105_highest_f64, C105_lowest_f64, C105_sma_f64_not_monotone, C105_ex_ordered, C104_ex
* `PropGaps`: C11_with_alpha_ex, C48_strength
* `PropGaps2`: C30_percentages
* `PropGaps3`: C97_risk_free_rate
* `PropLinear`: C131_sum, C131_sma, C131_wma, C131_swma, C131_ema, C131_rma, C131_sum_revised, C131_sma_revised, C131_wma_revised, C131_ema_revised, C131_rma_revised, C131_ex
* `PropLook`: C26_ex_backtest, C26_ex_same, C26_ex
* `PropMetrics`: C37_bracket, C39_percent_range
* `PropMetrics2`: C91_refuted, C92_estimated, C89_ex, C89_dated_ex, C90_ex, C92_ex, C29_default_ex
* `PropMirror`: C103_sma, C103_wma, C103_swma, C103_ema, C103_rma, C103_highest, C103_lowest, C103_rsi, C103_tr, C103_atr, C103_donchian, C103_williams, C103_cmo, C103_bop, C103_cmf, C103_cci, C103_vortex, C103_dmi, C103_aroon, C103_stoch, C103_signals, C103_backtest, C103_rsi_strategy, C103_ex
* `PropMissing`: C120_holes
* `PropOsc2`: C125_awesome, C125_macd_line, C125_atr, C125_atr_ex
* `PropPipe`: C100_ex, C101_ex, C102_ex
* `PropPlot`: C114_points, C114_axis, C114_left_to_right, C114_collide, C114_order, C114_exact, C114_equity, C114_trades, C114_ex, C114_ex_values
* `PropPrint`: C110_summary, C110_overview, C110_cobra, C110_backtest, C110_ex, C110_ex_ties
* `PropProgram`: C93_rsi_exact, C93_holds, C93_ex, C94_ex
* `PropRange`: C107_smoothing, C107_weighted, C107_dispersion, C107_true_range, C107_directional, C107_balance, C107_williams, C107_connors, C107_stochastic, C107_stochastic_over, C107_momentum_escapes, C107_ex_hyps, C107_ex
* `PropRange2`: C128_bollinger, C128_volatility_index, C128_vigor_escapes, C128_money_flow_escapes, C128_ultimate_escapes, C128_escape_bars, C128_ex
* `PropRatio`: C123_change, C123_roc, C123_bop, C123_donchian, C123_williams, C123_stoch, C123_tr, C123_source, C123_holds
* `PropReads`: C129_needed, C129_needed_reports, C129_ex
* `PropReport`: C95_intra_refuted, C95_intra_case, C95_drawdown_refuted, C96_ex
* `PropRespond`: C130_change, C130_roc, C130_rsi, C130_stochastic, C130_williams, C130_balance_of_power, C130_percent_rank, C130_crossings, C130_ex_bars, C130_ex
* `PropRound`: C98_ema, C98_rma, C99_sum_partial, C99_sma_partial, C99_refuted, C98_ex, C98_ex_rma, C99_ex, C99_ex_sum, C99_ex_refuted
* `PropSafe`: C69_refuted, C69_ex, C69_refuted_ex
* `PropScale`: C74_sma_moves, C74_wma_moves, C74_swma_moves, C74_highest_moves, C74_lowest_moves, C74_ema_moves, C74_rma_moves, C74_sum, C74_dev, C74_rsi_invariant, C74_stoch_invariant, C74_prank_invariant, C74_tr, C74_atr, C74_williams_invariant, C74_cmo_invariant, C74_bop_invariant, C74_cmf_invariant, C74_ultimate_invariant, C74_vortex_invariant, C74_cci_invariant, C74_aroon_invariant, C74_ex
* `PropSignal`: C115_bop, C115_cmo, C115_vortex, C115_cross, C115_williams, C115_price_oscillator, C115_backtest_averages, C115_backtest_cmo, C115_holds, C115_ex, C115_decimal
* `PropSmooth`: C124_atr, C124_rsi, C124_macd, C124_ex, C124_bars
* `PropSplit`: C125_sum, C125_sma, C125_change, C125_roc, C125_highest, C125_lowest, C125_wma, C125_percent_rank, C125_stoch, C125_tr, C125_donchian, C125_balance_of_power, C125_williams, C125_cmo, C125_ultimate, C125_backtest, C125_backtest_equity, C125_ex, C125_backtest_ex, C125_backtest_equity_ex, C125_not_ten
* `PropSplit2`: C126_tradingview_equity, C126_cobra_equity, C126_tradingview_shares, C126_cobra_shares, C126_ex
* `PropStats`: C41_batch, C41_welford, C41_var_fast, C41_case, C41_case_fast, C42_refuted, C42_partial, C43_scale_up_exact, C43_scale_down_exact, C43_scale_centered_exact, C43_monotone, C43_full_scale, C76_min_max_partial, C76_min_max_refuted, C44_near_exact, C44_near_nan, C44_case, C72_refuted
* `PropStrategy`: C30_exact, C35_cost, C35_no_funds, C35_antisymmetric
* `PropTa1`: C09_sma_mean, C10_sum_total, C09_ex, C10_ex, C11_ema_closed_form, C12_rma_closed_form, C11_ex, C11_panic_ex, C12_ex, C13_sma_between, C13_wma_between, C13_swma_between, C13_ema_between, C13_rma_between, C14_wma, C15_swma, C14_ex, C15_ex, C17_roc_exact, C16_change_refuted, C16_ex, C17_ex
* `PropTa2`: C18_ex, C19_ex, C19_ties_ex, C20_dev, C20_stdev_snapped, C20_stdev, C20_stdev_defined, C20_zero_on_constant, C20_nonneg, C20_ex
* `PropTa3`: C21_prank_exact, C21_prank_range, C21_ex, C22_rsi_formula, C22_rsi_rising, C22_rsi_falling, C22_rsi_range, C22_rsi_range_exact, C22_ex, C22_ex2, C23_stoch_range, C23_ex, C24_tr_nonneg, C24_tr_exact, C24_ex, C25_ex
* `PropTick`: C112_tradingview, C112_strategy, C112_totals, C112_equity, C112_printed, C112_holds, C112_ex, C112_decimal
* `PropTrend`: C117_rsi_rising, C117_rsi_falling, C117_cross_rising, C117_cross_falling, C117_hundred, C117_prank_rising_f64, C117_prank_falling_f64, C117_up, C117_down, C117_climbs_ex, C117_drops_ex, C117_runs, C117_tiny
* `PropUnits`: C108_tradingview, C108_cobra, C108_equity, C108_capital, C108_currency, C108_split, C108_ex, C108_rate_is_money, C108_intra_trade_grows
* `PropVar`: C109_welford, C109_constant, C109_slow, C109_overflow, C109_slow_constant, C109_ex_hyps, C109_ex
* `PropVolF`: C125_price_oscillator, C132_volume_oscillator_f64, C132_f64_ex, C132_f64_run
* `PropVolume`: C132_chaikin, C132_volume_oscillator, C132_volume_oscillator_default, C132_ex
* `PropWarm`: C106_ex, C106_ex_flat, C106_ex_complete
* `PropWhole`: C113_sum, C113_sma, C113_change, C113_roc, C113_cmo, C113_vortex, C113_bop, C113_donchian, C113_williams, C113_forgets, C113_between, C113_monotone, C113_holds, C113_bound
* `PropWin`: C116_trade, C116_counts, C116_rising, C116_not_turned, C116_at_most, C116_monotone, C116_ex, C116_rising_ex, C116_tiny, C116_sized
* `PropWindow`: C70_sum_refuted, C70_sma_refuted, C70_sum_not_window_refuted, C70_sma_not_window_refuted, C70_ex, C71_ctx_ex, C71_ex

