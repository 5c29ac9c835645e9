{
 "claims": [
  {
   "property": "C01",
   "status": "proved",
   "theorems": [
    "C01_iterator",
    "C01_body_sees_every_bar_once",
    "C01_loop_is_run",
    "C01_empty_range_rejected"
   ],
   "note": ""
  },
  {
   "property": "C02",
   "status": "proved",
   "theorems": [
    "C02_clones_share",
    "C02_second_loop_is_empty"
   ],
   "note": ""
  },
  {
   "property": "C03",
   "status": "proved",
   "theorems": [
    "C03_lookback",
    "C03_windows"
   ],
   "note": ""
  },
  {
   "property": "C04",
   "status": "proved",
   "theorems": [
    "C04_new",
    "C04_from_values"
   ],
   "note": ""
  },
  {
   "property": "C05",
   "status": "proved",
   "theorems": [
    "C05_window_cache",
    "C05_length_zero",
    "C05_unwrapped"
   ],
   "note": ""
  },
  {
   "property": "C06",
   "status": "proved",
   "theorems": [
    "C06_incremental_cache"
   ],
   "note": ""
  },
  {
   "property": "C07",
   "status": "proved",
   "theorems": [
    "C07_fixnan",
    "C07_position"
   ],
   "note": ""
  },
  {
   "property": "C08",
   "status": "proved",
   "theorems": [
    "C08_window_validator",
    "C08_zero_rejected"
   ],
   "note": ""
  },
  {
   "property": "C09",
   "status": "proved",
   "theorems": [
    "C09_sma_defined",
    "C09_sma_length_one",
    "C09_sma_length_zero_rejected",
    "C09_sma_mean"
   ],
   "note": ""
  },
  {
   "property": "C10",
   "status": "proved",
   "theorems": [
    "C10_sum_defined",
    "C10_sum_total"
   ],
   "note": ""
  },
  {
   "property": "C11",
   "status": "proved",
   "theorems": [
    "C11_with_alpha",
    "C11_with_alpha_panics",
    "C11_with_alpha_one",
    "C11_ema_recurrence",
    "C11_ema_panics_iff",
    "C11_ema_length_one",
    "C11_ema_length_zero_rejected",
    "C11_ema_closed_form"
   ],
   "note": ""
  },
  {
   "property": "C12",
   "status": "proved",
   "theorems": [
    "C12_rma_recurrence",
    "C12_rma_panics_iff",
    "C12_rma_is_ema",
    "C12_rma_length_one",
    "C12_rma_closed_form"
   ],
   "note": ""
  },
  {
   "property": "C13",
   "status": "proved",
   "theorems": [
    "C13_sma_between",
    "C13_wma_between",
    "C13_swma_between",
    "C13_ema_between",
    "C13_rma_between"
   ],
   "note": ""
  },
  {
   "property": "C14",
   "status": "proved",
   "theorems": [
    "C14_wma",
    "C14_wma_defined"
   ],
   "note": ""
  },
  {
   "property": "C15",
   "status": "proved",
   "theorems": [
    "C15_swma",
    "C15_swma_defined"
   ],
   "note": ""
  },
  {
   "property": "C16",
   "status": "partial",
   "theorems": [
    "C16_change_partial",
    "C16_change_refuted"
   ],
   "note": "The statement as given is false of the code: when the old value is exactly 0 nothing is output (C16_change_refuted). C16_change_partial is what the code does for every input."
  },
  {
   "property": "C17",
   "status": "proved",
   "theorems": [
    "C17_roc",
    "C17_roc_length_zero_rejected",
    "C17_roc_exact"
   ],
   "note": ""
  },
  {
   "property": "C18",
   "status": "proved",
   "theorems": [
    "C18_highest",
    "C18_lowest"
   ],
   "note": ""
  },
  {
   "property": "C19",
   "status": "proved",
   "theorems": [
    "C19_highest_bars",
    "C19_lowest_bars"
   ],
   "note": ""
  },
  {
   "property": "C20",
   "status": "proved",
   "theorems": [
    "C20_dev",
    "C20_stdev_snapped",
    "C20_stdev",
    "C20_stdev_defined",
    "C20_zero_on_constant",
    "C20_nonneg"
   ],
   "note": "Length 1 is special-cased by the code (Dev: 0, biased Stdev: 0, sample Stdev: None); the property is about length >= 2."
  },
  {
   "property": "C21",
   "status": "proved",
   "theorems": [
    "C21_prank",
    "C21_prank_exact",
    "C21_prank_range"
   ],
   "note": ""
  },
  {
   "property": "C22",
   "status": "proved",
   "theorems": [
    "C22_rsi_formula",
    "C22_rsi_rising",
    "C22_rsi_falling",
    "C22_rsi_defined",
    "C22_rsi_range",
    "C22_rsi_range_exact"
   ],
   "note": ""
  },
  {
   "property": "C23",
   "status": "proved",
   "theorems": [
    "C23_stoch",
    "C23_stoch_range"
   ],
   "note": ""
  },
  {
   "property": "C24",
   "status": "proved",
   "theorems": [
    "C24_tr",
    "C24_tr_missing_panics",
    "C24_atr",
    "C24_atr_length_one",
    "C24_tr_ge_range",
    "C24_tr_nonneg",
    "C24_tr_exact"
   ],
   "note": ""
  },
  {
   "property": "C25",
   "status": "proved",
   "theorems": [
    "C25_crossover",
    "C25_crossunder",
    "C25_thresholds",
    "C25_cross",
    "C25_between_overs"
   ],
   "note": ""
  },
  {
   "property": "C26",
   "status": "proved",
   "theorems": [
    "C26_same_past_same_run",
    "C26_no_look_ahead",
    "C26_loop"
   ],
   "note": ""
  },
  {
   "property": "C27",
   "status": "proved",
   "theorems": [
    "C27_box_transparent",
    "C27_ma_selects"
   ],
   "note": ""
  },
  {
   "property": "C28",
   "status": "proved",
   "theorems": [
    "C28_runs",
    "C28_trades",
    "C28_no_overlap",
    "C28_history_kept"
   ],
   "note": ""
  },
  {
   "property": "C29",
   "status": "proved",
   "theorems": [
    "C29_default",
    "C29_orders",
    "C29_last_signal",
    "C29_timing"
   ],
   "note": ""
  },
  {
   "property": "C30",
   "status": "proved",
   "theorems": [
    "C30_percentages",
    "C30_totals",
    "C30_exact"
   ],
   "note": ""
  },
  {
   "property": "C31",
   "status": "proved",
   "theorems": [
    "C31_equity",
    "C31_close_needed",
    "C31_start"
   ],
   "note": ""
  },
  {
   "property": "C32",
   "status": "proved",
   "theorems": [
    "C32_in_market",
    "C32_alternates"
   ],
   "note": ""
  },
  {
   "property": "C33",
   "status": "proved",
   "theorems": [
    "C33_signal_effect"
   ],
   "note": ""
  },
  {
   "property": "C34",
   "status": "proved",
   "theorems": [
    "C34_new_trade",
    "C34_queries",
    "C34_events"
   ],
   "note": ""
  },
  {
   "property": "C35",
   "status": "proved",
   "theorems": [
    "C35_size",
    "C35_cost",
    "C35_no_funds",
    "C35_antisymmetric"
   ],
   "note": ""
  },
  {
   "property": "C36",
   "status": "proved",
   "theorems": [
    "C36_timeframe",
    "C36_opposite",
    "C36_direction"
   ],
   "note": ""
  },
  {
   "property": "C37",
   "status": "proved",
   "theorems": [
    "C37_open_band",
    "C37_extremes",
    "C37_band",
    "C37_bracket"
   ],
   "note": ""
  },
  {
   "property": "C38",
   "status": "proved",
   "theorems": [
    "C38_running_max",
    "C38_monotone",
    "C38_histories"
   ],
   "note": ""
  },
  {
   "property": "C39",
   "status": "proved",
   "theorems": [
    "C39_formulas",
    "C39_percent_range",
    "C39_percentages"
   ],
   "note": ""
  },
  {
   "property": "C40",
   "status": "proved",
   "theorems": [
    "C40_ratios",
    "C40_drawdown",
    "C40_long_short"
   ],
   "note": ""
  },
  {
   "property": "C41",
   "status": "proved",
   "theorems": [
    "C41_welford_stdev",
    "C41_mean",
    "C41_var_slow",
    "C41_stdev_slow",
    "C41_batch",
    "C41_welford",
    "C41_var_fast",
    "C41_nonneg"
   ],
   "note": ""
  },
  {
   "property": "C42",
   "status": "partial",
   "theorems": [
    "C42_refuted",
    "C42_partial"
   ],
   "note": "False of the code: fast mode divides by n-1 and slow mode by n (C42_refuted gives a series on which they differ). C42_partial states the exact relation for every series."
  },
  {
   "property": "C43",
   "status": "proved",
   "theorems": [
    "C43_clip_range",
    "C43_clip_id",
    "C43_scale_range",
    "C43_scale_threshold",
    "C43_scale_up_exact",
    "C43_scale_down_exact",
    "C43_scale_centered_exact",
    "C43_monotone",
    "C43_full_scale"
   ],
   "note": ""
  },
  {
   "property": "C44",
   "status": "proved",
   "theorems": [
    "C44_assert",
    "C44_otherwise_panics",
    "C44_elements",
    "C44_debug",
    "C44_near_exact",
    "C44_near_nan"
   ],
   "note": ""
  },
  {
   "property": "C45",
   "status": "proved",
   "theorems": [
    "C45_pine"
   ],
   "note": ""
  },
  {
   "property": "C46",
   "status": "proved",
   "theorems": [
    "C46_between",
    "C46_src",
    "C46_src_missing_panics"
   ],
   "note": ""
  },
  {
   "property": "C47",
   "status": "proved",
   "theorems": [
    "C47_aroon",
    "C47_zero_age",
    "C47_value_exact",
    "C47_value_f64"
   ],
   "note": ""
  },
  {
   "property": "C48",
   "status": "proved",
   "theorems": [
    "C48_aroon_strategy_exact",
    "C48_aroon_strategy_f64",
    "C48_one_per_cross",
    "C48_cross_mode",
    "C48_strength",
    "C48_strength_missing",
    "C48_strength_range"
   ],
   "note": ""
  },
  {
   "property": "C49",
   "status": "proved",
   "theorems": [
    "C49_oscillator_strategies",
    "C49_default_thresholds",
    "C49_stoch_rsi_strategy",
    "C49_williams_strategy",
    "C49_williams_default",
    "C49_macd_strategy",
    "C49_stoch_rsi_default"
   ],
   "note": ""
  },
  {
   "property": "C50",
   "status": "proved",
   "theorems": [
    "C50_line_cross",
    "C50_dmi_strategy",
    "C50_dmi_default_threshold"
   ],
   "note": ""
  },
  {
   "property": "C51",
   "status": "proved",
   "theorems": [
    "C51_channels",
    "C51_encloses",
    "C51_exact"
   ],
   "note": ""
  },
  {
   "property": "C52",
   "status": "proved",
   "theorems": [
    "C52_williams",
    "C52_exact"
   ],
   "note": ""
  },
  {
   "property": "C53",
   "status": "proved",
   "theorems": [
    "C53_bop",
    "C53_exact_range",
    "C53_f64_range",
    "C53_no_overflow"
   ],
   "note": ""
  },
  {
   "property": "C54",
   "status": "proved",
   "theorems": [
    "C54_cmf",
    "C54_exact"
   ],
   "note": ""
  },
  {
   "property": "C55",
   "status": "proved",
   "theorems": [
    "C55_cmo",
    "C55_exact"
   ],
   "note": ""
  },
  {
   "property": "C56",
   "status": "proved",
   "theorems": [
    "C56_ultimate",
    "C56_exact"
   ],
   "note": ""
  },
  {
   "property": "C57",
   "status": "proved",
   "theorems": [
    "C57_dmi",
    "C57_one_direction",
    "C57_di",
    "C57_adx"
   ],
   "note": ""
  },
  {
   "property": "C58",
   "status": "proved",
   "theorems": [
    "C58_macd",
    "C58_awesome",
    "C58_price",
    "C58_volume",
    "C58_macd_default",
    "C58_awesome_default",
    "C58_volume_default",
    "C58_price_default"
   ],
   "note": ""
  },
  {
   "property": "C59",
   "status": "proved",
   "theorems": [
    "C59_bollinger",
    "C59_exact"
   ],
   "note": ""
  },
  {
   "property": "C60",
   "status": "proved",
   "theorems": [
    "C60_cci",
    "C60_exact"
   ],
   "note": ""
  },
  {
   "property": "C61",
   "status": "proved",
   "theorems": [
    "C61_connors",
    "C61_streak_rises",
    "C61_streak_falls",
    "C61_range",
    "C61_streak_flat",
    "C61_streak_first"
   ],
   "note": ""
  },
  {
   "property": "C62",
   "status": "proved",
   "theorems": [
    "C62_stoch_rsi",
    "C62_range"
   ],
   "note": ""
  },
  {
   "property": "C63",
   "status": "proved",
   "theorems": [
    "C63_vigor",
    "C63_exact"
   ],
   "note": ""
  },
  {
   "property": "C64",
   "status": "proved",
   "theorems": [
    "C64_volatility",
    "C64_no_panic",
    "C64_range",
    "C64_panics"
   ],
   "note": ""
  },
  {
   "property": "C65",
   "status": "proved",
   "theorems": [
    "C65_stops",
    "C65_exact"
   ],
   "note": ""
  },
  {
   "property": "C66",
   "status": "proved",
   "theorems": [
    "C66_choppiness",
    "C66_exact"
   ],
   "note": ""
  },
  {
   "property": "C67",
   "status": "proved",
   "theorems": [
    "C67_vortex",
    "C67_exact"
   ],
   "note": ""
  },
  {
   "property": "C68",
   "status": "proved",
   "theorems": [
    "C68_coppock",
    "C68_exact"
   ],
   "note": ""
  },
  {
   "property": "C69",
   "status": "partial",
   "theorems": [
    "C69_no_panic_partial",
    "C69_refuted"
   ],
   "note": "C69_no_panic_partial covers every indicator and configuration except the Relative Volatility Index with ma >= 2 and length >= ma + 3, for which the property is false of the code (C69_refuted, for every such pair of lengths). Aroon: the i32 conversion of the offset is modelled as exact, so lengths above 2^31 are outside the model."
  },
  {
   "property": "C70",
   "status": "partial",
   "theorems": [
    "C70_highest_partial",
    "C70_lowest_partial",
    "C70_wma_partial",
    "C70_swma_partial",
    "C70_prank_partial",
    "C70_change_partial",
    "C70_roc_partial",
    "C70_sum_refuted",
    "C70_sma_refuted",
    "C70_sum_not_window_refuted",
    "C70_sma_not_window_refuted"
   ],
   "note": "Holds of Highest, Lowest, Wma, Swma, Prank, Change and Roc for every arithmetic (the _partial theorems); false of Sum and Sma in f64: one infinite or NaN input makes every later output non-finite, for every length and history (C70_sum_refuted, C70_sma_refuted, and the _not_window_refuted pair exhibits an all-zero window)."
  },
  {
   "property": "C71",
   "status": "partial",
   "theorems": [
    "C71_sum_partial",
    "C71_sma_partial",
    "C71_dev_partial",
    "C71_stdev_partial",
    "C71_change_partial",
    "C71_roc_partial",
    "C71_ema_partial",
    "C71_rma_partial",
    "C71_highest_refuted",
    "C71_lowest_refuted",
    "C71_wma_refuted",
    "C71_swma_refuted",
    "C71_prank_refuted",
    "C71_stoch_refuted"
   ],
   "note": "Holds of Sum, Sma, Ema, Rma, Dev, Stdev, Change and Roc for every start tick (the _partial theorems); false of Highest, Lowest, Wma, Swma, Prank and Stoch for every start tick >= 1 and length >= 2 (the _refuted theorems)."
  },
  {
   "property": "C72",
   "status": "partial",
   "theorems": [
    "C72_either",
    "C72_tradingview_partial",
    "C72_partial",
    "C72_refuted"
   ],
   "note": "False of the code: Returns never updates the previous value, so every change is measured against the initial value (C72_refuted). C72_partial states what is computed."
  },
  {
   "property": "C73",
   "status": "proved",
   "theorems": [
    "C73_year",
    "C73_filter",
    "C73_total"
   ],
   "note": ""
  },
  {
   "property": "C74",
   "status": "proved",
   "theorems": [
    "C74_sma_moves",
    "C74_wma_moves",
    "C74_swma_moves",
    "C74_highest_moves",
    "C74_lowest_moves",
    "C74_ema_moves",
    "C74_rma_moves",
    "C74_sum",
    "C74_dev",
    "C74_rsi_invariant",
    "C74_stoch_invariant",
    "C74_prank_invariant",
    "C74_tr",
    "C74_atr",
    "C74_williams_invariant",
    "C74_cmo_invariant",
    "C74_bop_invariant",
    "C74_cmf_invariant",
    "C74_ultimate_invariant",
    "C74_vortex_invariant",
    "C74_cci_invariant",
    "C74_aroon_invariant"
   ],
   "note": ""
  },
  {
   "property": "C75",
   "status": "proved",
   "theorems": [
    "C75_cells",
    "C75_merge",
    "C75_direction_cells",
    "C75_merge_three",
    "C75_merge_four"
   ],
   "note": ""
  },
  {
   "property": "C76",
   "status": "partial",
   "theorems": [
    "C76_min_max_partial",
    "C76_min_max_refuted"
   ],
   "note": "False of the code for min > 0 (C76_min_max_refuted, for every such min and max); C76_min_max_partial proves it for min <= 0 in exact arithmetic."
  },
  {
   "property": "C77",
   "status": "partial",
   "theorems": [
    "C77_pairs_refuted",
    "C77_pairs_partial"
   ],
   "note": "False of the code: the second component is never compared (C77_pairs_refuted, for every value); C77_pairs_partial states what is compared."
  },
  {
   "property": "C78",
   "status": "proved",
   "theorems": [
    "C78_metadata",
    "C78_metadata_kept",
    "C78_is_up",
    "C78_at_length"
   ],
   "note": ""
  },
  {
   "property": "C79",
   "status": "proved",
   "theorems": [
    "C79_no_signal",
    "C79_flat_equity",
    "C79_flat_equity_f64"
   ],
   "note": ""
  },
  {
   "property": "C80",
   "status": "proved",
   "theorems": [
    "C80_capital"
   ],
   "note": ""
  },
  {
   "property": "C81",
   "status": "proved",
   "theorems": [
    "C81_proportional"
   ],
   "note": ""
  },
  {
   "property": "C82",
   "status": "proved",
   "theorems": [
    "C82_fixed_size",
    "C82_equity_size"
   ],
   "note": ""
  },
  {
   "property": "C83",
   "status": "proved",
   "theorems": [
    "C83_mirror_f64",
    "C83_mirror"
   ],
   "note": ""
  },
  {
   "property": "C84",
   "status": "proved",
   "theorems": [
    "C84_repeats"
   ],
   "note": ""
  },
  {
   "property": "C85",
   "status": "proved",
   "theorems": [
    "C85_mark_to_market"
   ],
   "note": ""
  },
  {
   "property": "C86",
   "status": "proved",
   "theorems": [
    "C86_compounding",
    "C86_long_only",
    "C86_ruin"
   ],
   "note": ""
  },
  {
   "property": "C87",
   "status": "proved",
   "theorems": [
    "C87_ta_lengths",
    "C87_ma",
    "C87_indicators",
    "C87_defaults",
    "C87_defaults_rest"
   ],
   "note": ""
  },
  {
   "property": "C88",
   "status": "proved",
   "theorems": [
    "C88_max_index",
    "C88_min_index",
    "C88_empty"
   ],
   "note": ""
  },
  {
   "property": "C89",
   "status": "proved",
   "theorems": [
    "C89_equity",
    "C89_tradingview",
    "C89_cobra"
   ],
   "note": ""
  },
  {
   "property": "C90",
   "status": "proved",
   "theorems": [
    "C90_adverse",
    "C90_intra_trade",
    "C90_nonneg"
   ],
   "note": ""
  },
  {
   "property": "C91",
   "status": "partial",
   "theorems": [
    "C91_band",
    "C91_tradingview",
    "C91_cobra",
    "C91_flat_partial",
    "C91_refuted"
   ],
   "note": "False of the code in non-continuous mode (C91_refuted: the excursion of the last trade is kept while flat, which gives a drawdown of 15 where the equity never fell by more than 8). C91_flat_partial: true before the first trade and whenever flat in continuous mode. C91_band, C91_tradingview and C91_cobra say exactly what the band is at every bar in every mode: the net equity plus the excursion of the last bar that ended in a trade."
  },
  {
   "property": "C92",
   "status": "proved",
   "theorems": [
    "C92_estimated"
   ],
   "note": ""
  },
  {
   "property": "C93",
   "status": "proved",
   "theorems": [
    "C93_example",
    "C93_rsi_exact"
   ],
   "note": ""
  },
  {
   "property": "C94",
   "status": "proved",
   "theorems": [
    "C94_accepted",
    "C94_columns",
    "C94_extension"
   ],
   "note": ""
  },
  {
   "property": "C95",
   "status": "partial",
   "theorems": [
    "C95_cobra",
    "C95_tradingview",
    "C95_drawdown_partial",
    "C95_intra_refuted",
    "C95_drawdown_refuted"
   ],
   "note": "The thresholds are as stated for every cell (C95_cobra, C95_tradingview, C95_drawdown_partial). False for drawdowns: the intra-trade drawdown is a positive fraction compared with negative thresholds, so it is always green (C95_intra_refuted, for every run); the TradingView drawdown colour compares the amount of money, not the printed percentage, with 0.2 (C95_drawdown_refuted)."
  },
  {
   "property": "C96",
   "status": "proved",
   "theorems": [
    "C96_label",
    "C96_marker"
   ],
   "note": ""
  },
  {
   "property": "C97",
   "status": "proved",
   "theorems": [
    "C97_aroon",
    "C97_donchian",
    "C97_williams",
    "C97_money_flow",
    "C97_momentum",
    "C97_ultimate",
    "C97_directional",
    "C97_bollinger",
    "C97_cci",
    "C97_vigor",
    "C97_stops",
    "C97_choppiness",
    "C97_vortex",
    "C97_coppock",
    "C97_rsi",
    "C97_connors",
    "C97_stoch_rsi",
    "C97_volatility",
    "C97_risk_free_rate"
   ],
   "note": ""
  },
  {
   "property": "C98",
   "status": "proved",
   "theorems": [
    "C98_ema",
    "C98_rma"
   ],
   "note": ""
  },
  {
   "property": "C99",
   "status": "partial",
   "theorems": [
    "C99_sum_partial",
    "C99_sma_partial",
    "C99_refuted"
   ],
   "note": "False of the code in general: after one value of 2^53 the f64 average of a window of ones is 1/length for ever, for every length >= 2 (C99_refuted), because the running sum has absorbed the small values. C99_sum_partial and C99_sma_partial prove an error bound that grows with the number of values seen (values / 2^50 of the largest input)."
  },
  {
   "property": "C100",
   "status": "proved",
   "theorems": [
    "C100_pipeline",
    "C100_backtest"
   ],
   "note": ""
  },
  {
   "property": "C101",
   "status": "proved",
   "theorems": [
    "C101_components",
    "C101_other_context"
   ],
   "note": ""
  },
  {
   "property": "C102",
   "status": "proved",
   "theorems": [
    "C102_by_hand",
    "C102_same_as_loop"
   ],
   "note": ""
  },
  {
   "property": "C103",
   "status": "proved",
   "theorems": [
    "C103_sma",
    "C103_wma",
    "C103_swma",
    "C103_ema",
    "C103_rma",
    "C103_highest",
    "C103_lowest",
    "C103_rsi",
    "C103_tr",
    "C103_atr",
    "C103_donchian",
    "C103_williams",
    "C103_cmo",
    "C103_bop",
    "C103_cmf",
    "C103_cci",
    "C103_vortex",
    "C103_dmi",
    "C103_aroon",
    "C103_stoch",
    "C103_signals",
    "C103_backtest",
    "C103_rsi_strategy"
   ],
   "note": ""
  },
  {
   "property": "C104",
   "status": "proved",
   "theorems": [
    "C104_ema",
    "C104_rma",
    "C104_ema_f64",
    "C104_rma_f64"
   ],
   "note": ""
  },
  {
   "property": "C105",
   "status": "proved",
   "theorems": [
    "C105_sum",
    "C105_sma",
    "C105_wma",
    "C105_swma",
    "C105_highest",
    "C105_lowest",
    "C105_ema",
    "C105_rma",
    "C105_ema_f64",
    "C105_rma_f64",
    "C105_wma_f64",
    "C105_swma_f64",
    "C105_highest_f64",
    "C105_lowest_f64",
    "C105_sma_f64_not_monotone"
   ],
   "note": ""
  },
  {
   "property": "C106",
   "status": "proved",
   "theorems": [
    "C106_sum",
    "C106_ma",
    "C106_averages",
    "C106_dispersion",
    "C106_extrema",
    "C106_changes",
    "C106_rsi",
    "C106_prank",
    "C106_true_range",
    "C106_atr",
    "C106_extreme_bars",
    "C106_donchian",
    "C106_williams",
    "C106_choppiness",
    "C106_money_flow",
    "C106_stops",
    "C106_bollinger",
    "C106_cci",
    "C106_momentum",
    "C106_rsi_indicator",
    "C106_connors",
    "C106_coppock",
    "C106_stoch_rsi",
    "C106_vortex",
    "C106_ultimate",
    "C106_vigor",
    "C106_directional",
    "C106_macd",
    "C106_price",
    "C106_awesome",
    "C106_volume"
   ],
   "note": ""
  },
  {
   "property": "C107",
   "status": "proved",
   "theorems": [
    "C107_smoothing",
    "C107_weighted",
    "C107_dispersion",
    "C107_true_range",
    "C107_directional",
    "C107_balance",
    "C107_williams",
    "C107_connors",
    "C107_stochastic",
    "C107_stochastic_over",
    "C107_momentum_escapes"
   ],
   "note": ""
  },
  {
   "property": "C108",
   "status": "proved",
   "theorems": [
    "C108_tradingview",
    "C108_cobra",
    "C108_equity",
    "C108_capital",
    "C108_currency",
    "C108_split",
    "C108_rate_is_money",
    "C108_intra_trade_grows"
   ],
   "note": ""
  },
  {
   "property": "C109",
   "status": "proved",
   "theorems": [
    "C109_welford",
    "C109_constant",
    "C109_slow",
    "C109_overflow",
    "C109_slow_constant"
   ],
   "note": ""
  },
  {
   "property": "C110",
   "status": "proved",
   "theorems": [
    "C110_line_break",
    "C110_count",
    "C110_fixed",
    "C110_close",
    "C110_order",
    "C110_summary",
    "C110_overview",
    "C110_cobra",
    "C110_backtest"
   ],
   "note": ""
  },
  {
   "property": "C111",
   "status": "proved",
   "theorems": [
    "C111_values",
    "C111_directions",
    "C111_rejects",
    "C111_rsi",
    "C111_rsi_strategy",
    "C111_rsi_exact"
   ],
   "note": ""
  },
  {
   "property": "C112",
   "status": "proved",
   "theorems": [
    "C112_tradingview",
    "C112_strategy",
    "C112_totals",
    "C112_equity",
    "C112_printed"
   ],
   "note": ""
  },
  {
   "property": "C113",
   "status": "proved",
   "theorems": [
    "C113_sum",
    "C113_sma",
    "C113_change",
    "C113_roc",
    "C113_cmo",
    "C113_vortex",
    "C113_bop",
    "C113_donchian",
    "C113_williams",
    "C113_forgets",
    "C113_between",
    "C113_monotone"
   ],
   "note": ""
  },
  {
   "property": "C114",
   "status": "proved",
   "theorems": [
    "C114_points",
    "C114_axis",
    "C114_left_to_right",
    "C114_collide",
    "C114_order",
    "C114_exact",
    "C114_equity",
    "C114_trades"
   ],
   "note": ""
  },
  {
   "property": "C115",
   "status": "proved",
   "theorems": [
    "C115_bop",
    "C115_cmo",
    "C115_vortex",
    "C115_cross",
    "C115_williams",
    "C115_price_oscillator",
    "C115_backtest_averages",
    "C115_backtest_cmo"
   ],
   "note": ""
  },
  {
   "property": "C116",
   "status": "proved",
   "theorems": [
    "C116_trade",
    "C116_counts",
    "C116_rising",
    "C116_not_turned",
    "C116_at_most",
    "C116_monotone"
   ],
   "note": ""
  },
  {
   "property": "C117",
   "status": "proved",
   "theorems": [
    "C117_highest_rising",
    "C117_lowest_rising",
    "C117_highest_falling",
    "C117_lowest_falling",
    "C117_aroon_rising",
    "C117_aroon_falling",
    "C117_prank_rising",
    "C117_prank_falling",
    "C117_rsi_rising",
    "C117_rsi_falling",
    "C117_cross_rising",
    "C117_cross_falling",
    "C117_hundred",
    "C117_prank_rising_f64",
    "C117_prank_falling_f64"
   ],
   "note": ""
  },
  {
   "property": "C118",
   "status": "proved",
   "theorems": [
    "C118_thresholds",
    "C118_lines",
    "C118_dmi_lines",
    "C118_stoch_rsi_lines",
    "C118_aroon_lines",
    "C118_flat_exact",
    "C118_flat_macd",
    "C118_flat_f64"
   ],
   "note": ""
  },
  {
   "property": "C119",
   "status": "proved",
   "theorems": [
    "C119_sum",
    "C119_totals",
    "C119_equity",
    "C119_plain",
    "C119_tradingview",
    "C119_mean"
   ],
   "note": ""
  },
  {
   "property": "C120",
   "status": "proved",
   "theorems": [
    "C120_values",
    "C120_behind",
    "C120_recursive",
    "C120_rsi",
    "C120_filled",
    "C120_price_oscillator",
    "C120_volume_oscillator",
    "C120_macd",
    "C120_bars",
    "C120_dmi"
   ],
   "note": ""
  },
  {
   "property": "C121",
   "status": "proved",
   "theorems": [
    "C121_only_fill_prices",
    "C121_and_last_close",
    "C121_fill_modes",
    "C121_waiting"
   ],
   "note": ""
  },
  {
   "property": "C122",
   "status": "proved",
   "theorems": [
    "C122_wma",
    "C122_swma",
    "C122_wma_range"
   ],
   "note": ""
  },
  {
   "property": "C123",
   "status": "proved",
   "theorems": [
    "C123_change",
    "C123_roc",
    "C123_bop",
    "C123_donchian",
    "C123_williams",
    "C123_stoch",
    "C123_tr",
    "C123_source",
    "C123_plain"
   ],
   "note": ""
  },
  {
   "property": "C124",
   "status": "proved",
   "theorems": [
    "C124_atr",
    "C124_rsi",
    "C124_macd"
   ],
   "note": ""
  },
  {
   "property": "C125",
   "status": "proved",
   "theorems": [
    "C125_ema",
    "C125_rma",
    "C125_price_oscillator_positive",
    "C125_awesome",
    "C125_macd_line",
    "C125_atr",
    "C125_sum",
    "C125_sma",
    "C125_change",
    "C125_roc",
    "C125_highest",
    "C125_lowest",
    "C125_wma",
    "C125_percent_rank",
    "C125_stoch",
    "C125_tr",
    "C125_donchian",
    "C125_balance_of_power",
    "C125_williams",
    "C125_cmo",
    "C125_ultimate",
    "C125_backtest",
    "C125_backtest_equity",
    "C125_price_oscillator"
   ],
   "note": ""
  },
  {
   "property": "C126",
   "status": "proved",
   "theorems": [
    "C126_tradingview_equity",
    "C126_cobra_equity",
    "C126_tradingview_shares",
    "C126_cobra_shares"
   ],
   "note": ""
  },
  {
   "property": "C127",
   "status": "proved",
   "theorems": [
    "C127_gross",
    "C127_tradingview",
    "C127_tradingview_risk",
    "C127_cobra_risk",
    "C127_drawdown",
    "C127_band"
   ],
   "note": ""
  },
  {
   "property": "C128",
   "status": "proved",
   "theorems": [
    "C128_bollinger",
    "C128_volatility_index",
    "C128_vigor_escapes",
    "C128_money_flow_escapes",
    "C128_ultimate_escapes"
   ],
   "note": ""
  },
  {
   "property": "C129",
   "status": "proved",
   "theorems": [
    "C129_sources_and_averages",
    "C129_bars",
    "C129_built",
    "C129_defaults",
    "C129_inputs",
    "C129_reports",
    "C129_needed",
    "C129_needed_reports"
   ],
   "note": ""
  },
  {
   "property": "C130",
   "status": "proved",
   "theorems": [
    "C130_change",
    "C130_roc",
    "C130_rsi",
    "C130_stochastic",
    "C130_williams",
    "C130_balance_of_power",
    "C130_percent_rank",
    "C130_crossings",
    "C130_ex_bars",
    "C130_ex"
   ],
   "note": ""
  },
  {
   "property": "C131",
   "status": "proved",
   "theorems": [
    "C131_sum",
    "C131_sma",
    "C131_wma",
    "C131_swma",
    "C131_ema",
    "C131_rma",
    "C131_sum_revised",
    "C131_sma_revised",
    "C131_wma_revised",
    "C131_ema_revised",
    "C131_rma_revised"
   ],
   "note": ""
  },
  {
   "property": "C132",
   "status": "proved",
   "theorems": [
    "C132_volume_oscillator_positive",
    "C132_volume_oscillator_default_f64",
    "C132_volume_oscillator_f64",
    "C132_chaikin",
    "C132_volume_oscillator",
    "C132_volume_oscillator_default"
   ],
   "note": ""
  }
 ]
}