{
 "claims": [
  {
   "property": "C01",
   "status": "proved",
   "theorems": [
    "C01_dates_are_civil_dates",
    "C01_act_counts_calendar_days",
    "C01_act_additive",
    "C01_reversed_rejected"
   ],
   "note": ""
  },
  {
   "property": "C02",
   "status": "proved",
   "theorems": [
    "C02_act_act_is_daily_sum",
    "C02_act_act_additive_increasing",
    "C02_act_act_new_years"
   ],
   "note": ""
  },
  {
   "property": "C03",
   "status": "proved",
   "theorems": [
    "C03_30E_360_additive",
    "C03_30E_360_full_months"
   ],
   "note": ""
  },
  {
   "property": "C04",
   "status": "proved",
   "theorems": [
    "C04_30_360_split",
    "C04_30_360_additive_refuted"
   ],
   "note": ""
  },
  {
   "property": "C05",
   "status": "proved",
   "theorems": [
    "C05_isda_negative_iff",
    "C05_isda_default_is_termination",
    "C05_isda_additive",
    "C05_isda_month_ends",
    "C05_isda_is_30E"
   ],
   "note": ""
  },
  {
   "property": "C06",
   "status": "proved",
   "theorems": [
    "C06_day_count_elementwise",
    "C06_year_frac_elementwise",
    "C06_year_frac_reversed_rejected",
    "C06_broadcast_start",
    "C06_broadcast_end",
    "C06_length_mismatch"
   ],
   "note": ""
  },
  {
   "property": "C07",
   "status": "proved",
   "theorems": [
    "C07_year_frac_order"
   ],
   "note": ""
  },
  {
   "property": "C08",
   "status": "proved",
   "theorems": [
    "C08_constructed_calendars_wf",
    "C08_is_busday",
    "C08_following_nearest",
    "C08_preceding_nearest",
    "C08_roll_total",
    "C08_unadjusted_rejected",
    "C08_roll_identity",
    "C08_roll_idempotent",
    "C08_roll_monotone"
   ],
   "note": ""
  },
  {
   "property": "C09",
   "status": "proved",
   "theorems": [
    "C09_modified_following_stays_in_month",
    "C09_modified_preceding_stays_in_month",
    "C09_modified_following_cases",
    "C09_modified_preceding_cases",
    "C09_month_index_is_calendar_month"
   ],
   "note": ""
  },
  {
   "property": "C10",
   "status": "proved",
   "theorems": [
    "C10_workday_counts",
    "C10_offsets_compose",
    "C10_offsets_invertible"
   ],
   "note": ""
  },
  {
   "property": "C11",
   "status": "proved",
   "theorems": [
    "C11_joint_calendar_is_intersection",
    "C11_single_key",
    "C11_unknown_member_rejected",
    "C11_order_and_repetition_irrelevant",
    "C11_no_common_working_day_rejected",
    "C11_weekmask"
   ],
   "note": ""
  },
  {
   "property": "C12",
   "status": "proved",
   "theorems": [
    "C12_cleaning_ignores_case_and_separators"
   ],
   "note": ""
  },
  {
   "property": "C13",
   "status": "proved",
   "theorems": [
    "C13_tenor_grammar",
    "C13_everything_else_rejected"
   ],
   "note": ""
  },
  {
   "property": "C14",
   "status": "proved",
   "theorems": [
    "C14_cleaning_stable_on_tenors",
    "C14_recognised_after_cleaning_is_stable",
    "C14_unit_words",
    "C14_years_and_months_words",
    "C14_names",
    "C14_idempotent_refuted"
   ],
   "note": ""
  },
  {
   "property": "C15",
   "status": "proved",
   "theorems": [
    "C15_spot_from_curve_date",
    "C15_curve_from_spot_date",
    "C15_round_trip",
    "C15_supplied_offset_ignored",
    "C15_all_three_fails",
    "C15_no_dates_fails",
    "C15_other_pair_fails"
   ],
   "note": ""
  },
  {
   "property": "C16",
   "status": "proved",
   "theorems": [
    "C16_implied_offset",
    "C16_check_offset",
    "C16_both_dates",
    "C16_recovers_lag_refuted"
   ],
   "note": ""
  },
  {
   "property": "C17",
   "status": "proved",
   "theorems": [
    "C17_spot_lag_symmetric",
    "C17_spot_lag_one_or_two",
    "C17_ir_settlement"
   ],
   "note": ""
  },
  {
   "property": "C18",
   "status": "proved",
   "theorems": [
    "C18_generation_terminates",
    "C18_generation_errors",
    "C18_make_schedule_terminates"
   ],
   "note": ""
  },
  {
   "property": "C19",
   "status": "proved",
   "theorems": [
    "C19_contiguous",
    "C19_make_schedule_contiguous",
    "C19_rolled_user_dates_refuted"
   ],
   "note": ""
  },
  {
   "property": "C20",
   "status": "proved",
   "theorems": [
    "C20_endpoints_and_C21_boundaries",
    "C20_make_schedule_endpoints",
    "C20_object_dates"
   ],
   "note": ""
  },
  {
   "property": "C21",
   "status": "proved",
   "theorems": [
    "C20_endpoints_and_C21_boundaries",
    "C21_no_drift",
    "C21_day_kept",
    "C21_offsets_are_periods"
   ],
   "note": ""
  },
  {
   "property": "C22",
   "status": "proved",
   "theorems": [
    "C22_monthly_strictly_increasing",
    "C22_nondecreasing",
    "C22_interior_nondecreasing",
    "C22_daily_duplicates_refuted",
    "C22_negative_period_refuted"
   ],
   "note": ""
  },
  {
   "property": "C23",
   "status": "proved",
   "theorems": [
    "C23_day_counts_add_up",
    "C23_year_fractions_add_up",
    "C23_reversed_period_rejected",
    "C23_30_360_refuted"
   ],
   "note": ""
  },
  {
   "property": "C24",
   "status": "proved",
   "theorems": [
    "C24_payment_dates",
    "C24_following_delay",
    "C24_payments_ordered",
    "C24_modified_following_not_before_refuted",
    "C24_refused"
   ],
   "note": ""
  },
  {
   "property": "C25",
   "status": "proved",
   "theorems": [
    "C25_notional_columns",
    "C25_totals",
    "C25_vector_rejected",
    "C25_coupon_schedule"
   ],
   "note": ""
  },
  {
   "property": "C26",
   "status": "proved",
   "theorems": [
    "C26_stub_settings",
    "C26_long_first_merges",
    "C26_long_last_merges",
    "C26_long_single_period_refused",
    "C26_first_period_end_kept",
    "C26_last_period_start_kept",
    "C26_both_dates_refuted",
    "C26_last_start_none_stub_refuted"
   ],
   "note": ""
  },
  {
   "property": "C27",
   "status": "proved",
   "theorems": [
    "C27_coupon_amount",
    "C27_pay_coupons_equal_receive_coupons",
    "C27_notional_payments_opposite",
    "C27_accrued_opposite",
    "C27_par_rate_changes_sign",
    "C27_leg_rows",
    "C27_parameter_lengths"
   ],
   "note": ""
  },
  {
   "property": "C28",
   "status": "proved",
   "theorems": [
    "C28_dirty_pv",
    "C28_fixed_leg",
    "C28_missing_curve",
    "C28_curve_drops_dates"
   ],
   "note": ""
  },
  {
   "property": "C29",
   "status": "proved",
   "theorems": [
    "C29_scales_with_notional",
    "C29_affine_in_rate",
    "C29_unique_rate",
    "C29_solved_rate"
   ],
   "note": ""
  },
  {
   "property": "C30",
   "status": "proved",
   "theorems": [
    "C30_contract_restored",
    "C30_par_contract_restored",
    "C30_swap_par",
    "C30_coupons_of_last_trial",
    "C30_exceptions_swallowed",
    "C30_missing_curve_is_nan",
    "C30_accrued_unchanged_refuted"
   ],
   "note": ""
  },
  {
   "property": "C31",
   "status": "proved",
   "theorems": [
    "C31_split_adds_up_iff",
    "C31_split_amounts",
    "C31_without_recalculation",
    "C31_split_adds_up_refuted"
   ],
   "note": ""
  },
  {
   "property": "C32",
   "status": "proved",
   "theorems": [
    "C32_buckets_partition",
    "C32_defined_iff_some_bound",
    "C32_unsorted_buckets_refuted",
    "C32_table",
    "C32_table_defined_iff"
   ],
   "note": ""
  },
  {
   "property": "C33",
   "status": "proved",
   "theorems": [
    "C33_accrued_adds_all_coupons",
    "C33_right_iff",
    "C33_no_current_period",
    "C33_current_period",
    "C33_needs_valuation_first"
   ],
   "note": ""
  },
  {
   "property": "C34",
   "status": "proved",
   "theorems": [
    "C34_opposite_sides",
    "C34_dirty_is_sum",
    "C34_clean_is_sum"
   ],
   "note": ""
  },
  {
   "property": "C35",
   "status": "proved",
   "theorems": [
    "C35_discount_factor",
    "C35_rate_recovered",
    "C35_discount_factor_recovered",
    "C35_zero_rate_gives_one",
    "C35_strictly_decreasing",
    "C35_no_rate_at_zero_years"
   ],
   "note": ""
  },
  {
   "property": "C36",
   "status": "proved",
   "theorems": [
    "C36_preserves_discount_factors",
    "C36_always_defined_and_invertible",
    "C36_one_year",
    "C36_from_simple_only_one_year",
    "C36_to_simple_only_one_year"
   ],
   "note": ""
  },
  {
   "property": "C37",
   "status": "proved",
   "theorems": [
    "C37_always_built",
    "C37_interpolation",
    "C37_monotone",
    "C37_one_at_curve_date",
    "C37_zero_rates",
    "C37_quote_on_curve_date_rejected",
    "C37_rates_need_a_frequency",
    "C37_positive",
    "C37_range",
    "C37_rates_and_factors_agree",
    "C37_rates_and_factors_agree_by_years",
    "C37_by_date_or_by_years"
   ],
   "note": ""
  },
  {
   "property": "C38",
   "status": "proved",
   "theorems": [
    "C38_no_arbitrage",
    "C38_consecutive_periods",
    "C38_continuous_forwards_average",
    "C38_averages",
    "C38_averages_missing_on_act_act",
    "C38_weighted_average_below_compounded",
    "C38_refused_arguments",
    "C38_average_beyond_curve"
   ],
   "note": ""
  },
  {
   "property": "C39",
   "status": "proved",
   "theorems": [
    "C39_dates_dropped",
    "C39_aligned_iff_in_range",
    "C39_single_date_out_of_range",
    "C39_missing_date",
    "C39_days_count_from_curve_date",
    "C39_one_kind_of_argument",
    "C39_years_need_a_spline",
    "C39_forward_uses_another_periods_end",
    "C39_dates_after_the_curve"
   ],
   "note": ""
  },
  {
   "property": "C40",
   "status": "proved",
   "theorems": [
    "C40_latest_fixing_in_input_order",
    "C40_unsorted_table_rejected",
    "C40_no_look_ahead"
   ],
   "note": ""
  },
  {
   "property": "C41",
   "status": "proved",
   "theorems": [
    "C41_compounded",
    "C41_bounds",
    "C41_single_day",
    "C41_weighted_average",
    "C41_simple_average",
    "C41_weighted_below_compounded"
   ],
   "note": ""
  },
  {
   "property": "C42",
   "status": "proved",
   "theorems": [
    "C42_one_class_each",
    "C42_rates",
    "C42_growth",
    "C42_periods_independent",
    "C42_future",
    "C42_past",
    "C42_straddling"
   ],
   "note": ""
  },
  {
   "property": "C43",
   "status": "proved",
   "theorems": [
    "C43_historical_fixings_only",
    "C43_succeeds",
    "C43_curve_ignored"
   ],
   "note": ""
  },
  {
   "property": "C44",
   "status": "proved",
   "theorems": [
    "C44_deposits_reprice",
    "C44_deposits_solvable_iff_chained",
    "C44_futures_reprice",
    "C44_forward_rates_from_prices",
    "C44_convexity_lowers_forward_rates",
    "C44_forward_rates_from_futures_rates",
    "C44_given_forward_rates",
    "C44_no_price"
   ],
   "note": ""
  },
  {
   "property": "C45",
   "status": "proved",
   "theorems": [
    "C45_dates_in_chronological_order",
    "C45_dates_by_position",
    "C45_dates_right_iff_chronological",
    "C45_accepted_iff",
    "C45_second_friday",
    "C45_tickers",
    "C45_tickers_give_contracts",
    "C45_rate_of_price"
   ],
   "note": ""
  },
  {
   "property": "C46",
   "status": "proved",
   "theorems": [
    "C46_solved_columns",
    "C46_market_definitions",
    "C46_rejects",
    "C46_other_names"
   ],
   "note": ""
  },
  {
   "property": "C47",
   "status": "proved",
   "theorems": [
    "C47_rows_and_order",
    "C47_after_cleaning_and_solving"
   ],
   "note": ""
  },
  {
   "property": "C48",
   "status": "proved",
   "theorems": [
    "C48_black76_parity",
    "C48_bachelier_parity",
    "C48_garman_kohlhagen_parity",
    "C48_garman_kohlhagen_parity_at_expiry"
   ],
   "note": ""
  },
  {
   "property": "C49",
   "status": "proved",
   "theorems": [
    "C49_black76_bounds",
    "C49_black76_increasing_in_volatility",
    "C49_black76_increasing_in_expiry",
    "C49_black76_implied_volatility",
    "C49_bachelier_bounds",
    "C49_bachelier_increasing_in_volatility",
    "C49_bachelier_implied_volatility",
    "C49_garman_kohlhagen_bounds",
    "C49_garman_kohlhagen_increasing_in_volatility",
    "C49_garman_kohlhagen_implied_volatility"
   ],
   "note": ""
  },
  {
   "property": "C50",
   "status": "proved",
   "theorems": [
    "C50_black76_delta",
    "C50_black76_vega",
    "C50_bachelier_delta",
    "C50_bachelier_vega",
    "C50_bachelier_theta_scaled_wrongly",
    "C50_garman_kohlhagen_spot_delta",
    "C50_garman_kohlhagen_forward_delta",
    "C50_garman_kohlhagen_deltas",
    "C50_garman_kohlhagen_vega",
    "C50_garman_kohlhagen_gamma",
    "C50_garman_kohlhagen_theta_deviation",
    "C50_garman_kohlhagen_theta_calls",
    "C50_garman_kohlhagen_theta_puts",
    "C50_garman_kohlhagen_rho_deviation",
    "C50_garman_kohlhagen_rho_right",
    "C50_garman_kohlhagen_rho_with_forward"
   ],
   "note": ""
  },
  {
   "property": "C51",
   "status": "proved",
   "theorems": [
    "C51_shift_invariant",
    "C51_homogeneous"
   ],
   "note": ""
  },
  {
   "property": "C52",
   "status": "proved",
   "theorems": [
    "C52_regular_delta_reproduced",
    "C52_regular_at_the_money",
    "C52_regular_unattainable",
    "C52_premium_adjusted_delta_reproduced",
    "C52_premium_adjusted_at_the_money",
    "C52_one_strike_per_quote"
   ],
   "note": ""
  },
  {
   "property": "C53",
   "status": "proved",
   "theorems": [
    "C53_forward_or_rate",
    "C53_expired"
   ],
   "note": ""
  },
  {
   "property": "C54",
   "status": "proved",
   "theorems": [
    "C54_lognormal_to_normal",
    "C54_round_trip",
    "C54_normal_to_lognormal",
    "C54_lognormal_to_normal_off_the_money",
    "C54_general_conversion_unchecked",
    "C54_general_conversion_reprices",
    "C54_shifted_volatility_reprices",
    "C54_guess_divides_by_zero"
   ],
   "note": ""
  },
  {
   "property": "C55",
   "status": "proved",
   "theorems": [
    "C55_alpha_reprices",
    "C55_alpha_closest",
    "C55_alpha_found_iff_one_exists",
    "C55_alpha_exists_unless_lognormal",
    "C55_alpha_exists_lognormal",
    "C55_alpha_positive"
   ],
   "note": ""
  },
  {
   "property": "C56",
   "status": "proved",
   "theorems": [
    "C56_total_variance",
    "C56_disordered_times",
    "C56_equal_times",
    "C56_wrong_shapes",
    "C56_composes"
   ],
   "note": ""
  },
  {
   "property": "C57",
   "status": "proved",
   "theorems": [
    "C57_linear_total_variance",
    "C57_hits_the_pillars",
    "C57_refused"
   ],
   "note": ""
  },
  {
   "property": "C58",
   "status": "proved",
   "theorems": [
    "C58_closed_form",
    "C58_positive_and_restartable",
    "C58_antithetic_products",
    "C58_several_underlyings",
    "C58_shapes_checked"
   ],
   "note": ""
  },
  {
   "property": "C59",
   "status": "proved",
   "theorems": [
    "C59_accepted_iff",
    "C59_plain",
    "C59_even",
    "C59_odd"
   ],
   "note": ""
  },
  {
   "property": "C60",
   "status": "proved",
   "theorems": [
    "C60_second_moments",
    "C60_right_iff_uncorrelated",
    "C60_total_variance_kept",
    "C60_two_variables",
    "C60_each_step",
    "C60_wrong_width_refused",
    "C60_wrong_number_of_variables_refused"
   ],
   "note": ""
  },
  {
   "property": "C61",
   "status": "proved",
   "theorems": [
    "C61_qe_paths_admissible",
    "C61_qe_quadratic_branch",
    "C61_qe_exponential_branch",
    "C61_qe_spot_step",
    "C61_qe_moments_matched",
    "C61_euler_step",
    "C61_euler_may_end_negative",
    "C61_other_euler_names",
    "C61_unknown_method_gives_zeros",
    "C61_qe_zero_division",
    "C61_perfect_correlation_refused"
   ],
   "note": ""
  },
  {
   "property": "C62",
   "status": "proved",
   "theorems": [
    "C62_psi",
    "C62_chi_exact_iff",
    "C62_payoff_coefficients"
   ],
   "note": ""
  },
  {
   "property": "C63",
   "status": "proved",
   "theorems": [
    "C63_weights_of_even_length",
    "C63_weights_of_odd_length",
    "C63_short_weights",
    "C63_weighted_sum",
    "C63_constants_not_integrated"
   ],
   "note": ""
  },
  {
   "property": "C64",
   "status": "proved",
   "theorems": [
    "C64_b_equation",
    "C64_b_composition",
    "C64_b_slow",
    "C64_is_black",
    "C64_parity",
    "C64_increasing_in_volatility",
    "C64_zero_volatility",
    "C64_small_volatility",
    "C64_no_mean_reversion",
    "C64_matured",
    "C64_arrays",
    "C64_later_valuation",
    "C64_optionlet_never_priced",
    "C64_swaption_never_priced",
    "C64_construction"
   ],
   "note": ""
  },
  {
   "property": "C65",
   "status": "proved",
   "theorems": [
    "C65_texts",
    "C65_day_count",
    "C65_period",
    "C65_one_word",
    "C65_period_letters",
    "C65_missing",
    "C65_numbers",
    "C65_validity",
    "C65_day_count_stricter",
    "C65_display",
    "C65_title",
    "C65_signs"
   ],
   "note": ""
  },
  {
   "property": "C66",
   "status": "proved",
   "theorems": [
    "C66_accepted_iff",
    "C66_every_simulation_once"
   ],
   "note": ""
  },
  {
   "property": "C67",
   "status": "proved",
   "theorems": [
    "C67_from_behind",
    "C67_from_front",
    "C67_after_last",
    "C67_itself",
    "C67_columns_kept",
    "C67_missing",
    "C67_duplicates"
   ],
   "note": ""
  },
  {
   "property": "C68",
   "status": "proved",
   "theorems": [
    "C68_floating_value",
    "C68_floating_without_index_curve"
   ],
   "note": ""
  },
  {
   "property": "C69",
   "status": "proved",
   "theorems": [
    "C69_target_applies_to_the_leg",
    "C69_other_leg_numbers",
    "C69_one_leg_changes"
   ],
   "note": ""
  },
  {
   "property": "C70",
   "status": "proved",
   "theorems": [
    "C70_leg_priced_iff_curve_covers_payments"
   ],
   "note": ""
  },
  {
   "property": "C71",
   "status": "proved",
   "theorems": [
    "C71_years_truncated"
   ],
   "note": ""
  },
  {
   "property": "C72",
   "status": "proved",
   "theorems": [
    "C72_callers_frame_extended",
    "C72_added_columns",
    "C72_second_construction_fails"
   ],
   "note": ""
  },
  {
   "property": "C73",
   "status": "proved",
   "theorems": [
    "C73_rejected_iff_poorly_covered",
    "C73_no_fixing_earns_zero",
    "C73_earlier_fixings_ignored"
   ],
   "note": ""
  },
  {
   "property": "C74",
   "status": "proved",
   "theorems": [
    "C74_quotes_by_tenor",
    "C74_quotes_bootstrap_iff",
    "C74_tenors_required",
    "C74_settlement_required",
    "C74_given_dates_not_bootstrapped"
   ],
   "note": ""
  },
  {
   "property": "C75",
   "status": "proved",
   "theorems": [
    "C75_minus_derivative_of_log_discount",
    "C75_nothing_for_linear_curves"
   ],
   "note": ""
  },
  {
   "property": "C76",
   "status": "proved",
   "theorems": [
    "C76_dates",
    "C76_fails_otherwise",
    "C76_rate_set_date_alone",
    "C76_tenor_column_required",
    "C76_every_tenor_required"
   ],
   "note": ""
  },
  {
   "property": "C77",
   "status": "proved",
   "theorems": [
    "C77_interpolation",
    "C77_determined",
    "C77_repeated_pillar_rejected"
   ],
   "note": ""
  },
  {
   "property": "C78",
   "status": "proved",
   "theorems": [
    "C78_pair_spellings",
    "C78_other_lengths_rejected",
    "C78_convention_warnings"
   ],
   "note": ""
  },
  {
   "property": "C79",
   "status": "proved",
   "theorems": [
    "C79_every_spelling",
    "C79_other_names_unchanged",
    "C79_idempotent",
    "C79_frame"
   ],
   "note": ""
  },
  {
   "property": "C80",
   "status": "proved",
   "theorems": [
    "C80_black76_elementwise",
    "C80_black76_accepts",
    "C80_black76_rejects",
    "C80_black76_greeks_shape",
    "C80_black76_split_shape",
    "C80_bachelier_elementwise",
    "C80_bachelier_accepts",
    "C80_bachelier_rejects",
    "C80_bachelier_greeks_shape",
    "C80_bachelier_split_shape"
   ],
   "note": ""
  },
  {
   "property": "C81",
   "status": "proved",
   "theorems": [
    "C81_black76_split",
    "C81_bachelier_split",
    "C81_time_value_positive",
    "C81_time_value_negative_when_discounted",
    "C81_expired"
   ],
   "note": ""
  },
  {
   "property": "C82",
   "status": "proved",
   "theorems": [
    "C82_black76_solver",
    "C82_bachelier_solver",
    "C82_black76_fallback_misses",
    "C82_bachelier_fallback_misses"
   ],
   "note": ""
  },
  {
   "property": "C83",
   "status": "proved",
   "theorems": [
    "C83_numerical_greeks_unshifted",
    "C83_numerical_greeks_shift_twice",
    "C83_numerical_greeks_elementwise",
    "C83_numerical_greeks_shape",
    "C83_bachelier_ignores_numerical_greeks"
   ],
   "note": ""
  },
  {
   "property": "C84",
   "status": "proved",
   "theorems": [
    "C84_black76_no_volatility",
    "C84_black76_at_the_shift",
    "C84_black76_below_the_shift",
    "C84_bachelier_no_volatility",
    "C84_normal_distribution"
   ],
   "note": ""
  },
  {
   "property": "C85",
   "status": "proved",
   "theorems": [
    "C85_accepts",
    "C85_rejects",
    "C85_elementwise",
    "C85_numerical_greeks_unusable"
   ],
   "note": ""
  },
  {
   "property": "C86",
   "status": "proved",
   "theorems": [
    "C86_split",
    "C86_split_expired"
   ],
   "note": ""
  },
  {
   "property": "C87",
   "status": "proved",
   "theorems": [
    "C87_invalid_arguments",
    "C87_zero_delta_first",
    "C87_zero_delta_repeats_the_strike_before",
    "C87_put_search",
    "C87_call_search"
   ],
   "note": ""
  },
  {
   "property": "C88",
   "status": "proved",
   "theorems": [
    "C88_put_delta_decreasing",
    "C88_put_strike_exists_and_is_unique",
    "C88_below_the_regular_delta",
    "C88_put_bracket",
    "C88_call_delta_has_one_peak",
    "C88_call_strike_unique_above_the_peak"
   ],
   "note": ""
  },
  {
   "property": "C89",
   "status": "proved",
   "theorems": [
    "C89_solver_report",
    "C89_objective",
    "C89_invalid_inputs",
    "C89_fallback_bracket"
   ],
   "note": ""
  },
  {
   "property": "C90",
   "status": "proved",
   "theorems": [
    "C90_negative_volatility",
    "C90_zero_volatility"
   ],
   "note": ""
  },
  {
   "property": "C91",
   "status": "proved",
   "theorems": [
    "C91_off_the_money",
    "C91_near_the_money",
    "C91_at_the_money",
    "C91_continuous_at_the_forward",
    "C91_positive",
    "C91_shift_invariant",
    "C91_scale_invariant",
    "C91_mirror"
   ],
   "note": ""
  },
  {
   "property": "C92",
   "status": "proved",
   "theorems": [
    "C92_no_volvol_or_alpha",
    "C92_perfect_correlation",
    "C92_opposite_signs",
    "C92_zero_forward_or_strike",
    "C92_both_negative_accepted"
   ],
   "note": ""
  },
  {
   "property": "C93",
   "status": "proved",
   "theorems": [
    "C93_elementwise",
    "C93_rejected",
    "C93_no_strikes"
   ],
   "note": ""
  },
  {
   "property": "C94",
   "status": "proved",
   "theorems": [
    "C94_fit_reprices",
    "C94_fit_needs_shift",
    "C94_default_shift_type_error",
    "C94_fit_needs_one_atm_quote",
    "C94_fit_errors",
    "C94_unsuccessful_search"
   ],
   "note": ""
  },
  {
   "property": "C95",
   "status": "proved",
   "theorems": [
    "C95_daily_surface",
    "C95_refused",
    "C95_unsorted_refused"
   ],
   "note": ""
  },
  {
   "property": "C96",
   "status": "proved",
   "theorems": [
    "C96_no_volatility",
    "C96_ratio_ignores_the_curve"
   ],
   "note": ""
  },
  {
   "property": "C97",
   "status": "proved",
   "theorems": [
    "C97_vectorised_is_scalar"
   ],
   "note": ""
  },
  {
   "property": "C98",
   "status": "proved",
   "theorems": [
    "C98_prices",
    "C98_series_mass",
    "C98_put_bounds",
    "C98_put_periodic",
    "C98_errors"
   ],
   "note": ""
  },
  {
   "property": "C99",
   "status": "proved",
   "theorems": [
    "C99_albrecher_is_fang",
    "C99_second_probability",
    "C99_first_probability",
    "C99_price_of_volatility_risk"
   ],
   "note": ""
  },
  {
   "property": "C100",
   "status": "proved",
   "theorems": [
    "C100_at_zero",
    "C100_forward",
    "C100_defined_and_bounded",
    "C100_defined_on_strip"
   ],
   "note": ""
  },
  {
   "property": "C101",
   "status": "proved",
   "theorems": [
    "C101_solution_exists",
    "C101_solution_unique",
    "C101_chf_is_solution",
    "C101_albrecher_is_solution",
    "C101_real_arguments"
   ],
   "note": ""
  },
  {
   "property": "C102",
   "status": "proved",
   "theorems": [
    "C102_lipton_agrees_iff",
    "C102_uncorrelated"
   ],
   "note": ""
  },
  {
   "property": "C103",
   "status": "proved",
   "theorems": [
    "C103_1993_integrand",
    "C103_1993_integrand_at_zero",
    "C103_1993_price",
    "C103_parity_1993",
    "C103_parity_lipton",
    "C103_carr_madan_rejects",
    "C103_transform_is_sum",
    "C103_integrand_defined",
    "C103_quadrature_price",
    "C103_unknown_method",
    "C103_risk_price_ignored",
    "C103_risk_price_used"
   ],
   "note": ""
  },
  {
   "property": "C104",
   "status": "proved",
   "theorems": [
    "C104_heston_moments",
    "C104_moments_exist",
    "C104_range_too_narrow",
    "C104_gbm",
    "C104_other_models",
    "C104_missing_parameter",
    "C104_sequence_for_heston"
   ],
   "note": ""
  },
  {
   "property": "C105",
   "status": "proved",
   "theorems": [
    "C105_riemann_sums",
    "C105_density_series",
    "C105_rejects",
    "C105_overshoot"
   ],
   "note": ""
  },
  {
   "property": "C106",
   "status": "proved",
   "theorems": [
    "C106_strikes",
    "C106_decomposition",
    "C106_unique",
    "C106_expiring_now",
    "C106_validation"
   ],
   "note": ""
  },
  {
   "property": "C107",
   "status": "proved",
   "theorems": [
    "C107_ode_1",
    "C107_ode_1_today",
    "C107_ode_1_recovers",
    "C107_ode_2_today",
    "C107_flat_agreement",
    "C107_rejections"
   ],
   "note": ""
  },
  {
   "property": "C108",
   "status": "proved",
   "theorems": [
    "C108_rates",
    "C108_average_rate",
    "C108_exact_too_low",
    "C108_exact_variance",
    "C108_no_volatility",
    "C108_discounts",
    "C108_zero_rates",
    "C108_returns",
    "C108_no_mean_reversion",
    "C108_unknown_method"
   ],
   "note": ""
  },
  {
   "property": "C109",
   "status": "proved",
   "theorems": [
    "C109_variance_function",
    "C109_drift_integral",
    "C109_state",
    "C109_bond",
    "C109_bond_today"
   ],
   "note": ""
  },
  {
   "property": "C110",
   "status": "proved",
   "theorems": [
    "C110_rows",
    "C110_new_ids",
    "C110_idempotent",
    "C110_untrimmed_id"
   ],
   "note": ""
  },
  {
   "property": "C111",
   "status": "proved",
   "theorems": [
    "C111_copied",
    "C111_unique_ids",
    "C111_lost_message"
   ],
   "note": ""
  },
  {
   "property": "C112",
   "status": "proved",
   "theorems": [
    "C112_black76",
    "C112_bachelier",
    "C112_garman_kohlhagen",
    "C112_bond_option"
   ],
   "note": ""
  },
  {
   "property": "C113",
   "status": "proved",
   "theorems": [
    "C113_moments",
    "C113_option",
    "C113_garman_kohlhagen"
   ],
   "note": ""
  },
  {
   "property": "C114",
   "status": "proved",
   "theorems": [
    "C114_expected_spot"
   ],
   "note": ""
  },
  {
   "property": "C115",
   "status": "proved",
   "theorems": [
    "C115_expected_rate",
    "C115_expected_discount",
    "C115_first_discount"
   ],
   "note": ""
  },
  {
   "property": "C116",
   "status": "proved",
   "theorems": [
    "C116_qe_variance",
    "C116_qe_spot_uncorrelated",
    "C116_qe_first_spot",
    "C116_qe_martingale_refuted",
    "C116_euler_spot",
    "C116_euler_first_step"
   ],
   "note": ""
  },
  {
   "property": "C117",
   "status": "proved",
   "theorems": [
    "C117_history",
    "C117_elementwise",
    "C117_rows",
    "C117_prices",
    "C117_outside",
    "C117_outside_any",
    "C117_lengths"
   ],
   "note": ""
  },
  {
   "property": "C118",
   "status": "proved",
   "theorems": [
    "C118_quote_reproduced",
    "C118_regular_smile",
    "C118_at_the_money",
    "C118_premium_adjusted_smile",
    "C118_option_type_irrelevant",
    "C118_parity",
    "C118_few_quotes",
    "C118_degree"
   ],
   "note": ""
  },
  {
   "property": "C119",
   "status": "proved",
   "theorems": [
    "C119_report",
    "C119_invalid",
    "C119_missing_quote",
    "C119_success_flag_ignored",
    "C119_inadmissible",
    "C119_inadmissible_type_error",
    "C119_starting_point",
    "C119_cosine_vector"
   ],
   "note": ""
  },
  {
   "property": "C120",
   "status": "proved",
   "theorems": [
    "C120_query",
    "C120_quotes_fitted",
    "C120_price",
    "C120_strikes",
    "C120_at_quote"
   ],
   "note": ""
  },
  {
   "property": "C121",
   "status": "proved",
   "theorems": [
    "C121_daily_rows",
    "C121_construction",
    "C121_end_to_end"
   ],
   "note": ""
  },
  {
   "property": "C122",
   "status": "proved",
   "theorems": [
    "C122_construction_fails",
    "C122_quote_numbers",
    "C122_par_forward",
    "C122_forward_between",
    "C122_forward_of_nothing"
   ],
   "note": ""
  },
  {
   "property": "C123",
   "status": "proved",
   "theorems": [
    "C123_columns",
    "C123_parity",
    "C123_normal_vol",
    "C123_unchecked",
    "C123_rows_after_quotes"
   ],
   "note": ""
  },
  {
   "property": "C124",
   "status": "proved",
   "theorems": [
    "C124_first_quote",
    "C124_later_quote",
    "C124_stored_line",
    "C124_two_rows_before",
    "C124_one_row_before",
    "C124_lognormal"
   ],
   "note": ""
  },
  {
   "property": "C125",
   "status": "proved",
   "theorems": [
    "C125_rows",
    "C125_first_quote",
    "C125_later_quote",
    "C125_at_the_money",
    "C125_bounds",
    "C125_objective",
    "C125_error",
    "C125_repriced"
   ],
   "note": ""
  },
  {
   "property": "C126",
   "status": "proved",
   "theorems": [
    "C126_values",
    "C126_at_the_money",
    "C126_refused"
   ],
   "note": ""
  },
  {
   "property": "C127",
   "status": "proved",
   "theorems": [
    "C127_accepted",
    "C127_flat_lognormal",
    "C127_flat_normal",
    "C127_term_structure",
    "C127_parity",
    "C127_flat_vols"
   ],
   "note": ""
  },
  {
   "property": "C128",
   "status": "proved",
   "theorems": [
    "C128_search",
    "C128_bps_columns",
    "C128_percent_columns",
    "C128_atm_columns",
    "C128_one_atm",
    "C128_other_columns",
    "C128_refused_columns",
    "C128_refused_frames",
    "C128_documented_labels_refused",
    "C128_capital_mark_refused"
   ],
   "note": ""
  },
  {
   "property": "C129",
   "status": "proved",
   "theorems": [
    "C129_nearest",
    "C129_bps_value",
    "C129_percent_value",
    "C129_same_offset"
   ],
   "note": ""
  },
  {
   "property": "C130",
   "status": "proved",
   "theorems": [
    "C130_integer_name",
    "C130_name_exact",
    "C130_three_is_two",
    "C130_fraction_name",
    "C130_shared_names",
    "C130_relative",
    "C130_absolute",
    "C130_last_column_wins"
   ],
   "note": ""
  },
  {
   "property": "C131",
   "status": "proved",
   "theorems": [
    "C131_nothing_given",
    "C131_delay",
    "C131_negative_delay",
    "C131_date_given",
    "C131_both_given",
    "C131_capfloor_never_returns"
   ],
   "note": ""
  },
  {
   "property": "C132",
   "status": "proved",
   "theorems": [
    "C132_grid_points",
    "C132_grid_order",
    "C132_grid_refused",
    "C132_grid_refusal",
    "C132_setup"
   ],
   "note": ""
  },
  {
   "property": "C133",
   "status": "proved",
   "theorems": [
    "C133_first_pillar",
    "C133_error_raises",
    "C133_error",
    "C133_fit_raises",
    "C133_choice"
   ],
   "note": ""
  },
  {
   "property": "C134",
   "status": "proved",
   "theorems": [
    "C134_integral_is_log_ratio",
    "C134_linear_raises"
   ],
   "note": ""
  },
  {
   "property": "C135",
   "status": "proved",
   "theorems": [
    "C135_returns",
    "C135_pillars",
    "C135_frequencies_refused",
    "C135_other_refusals"
   ],
   "note": ""
  },
  {
   "property": "C136",
   "status": "proved",
   "theorems": [
    "C136_agree",
    "C136_path",
    "C136_unknown_method",
    "C136_no_step",
    "C136_positive"
   ],
   "note": ""
  },
  {
   "property": "C137",
   "status": "proved",
   "theorems": [
    "C137_moments",
    "C137_distance",
    "C137_convergence"
   ],
   "note": ""
  },
  {
   "property": "C138",
   "status": "proved",
   "theorems": [
    "C138_no_accumulation",
    "C138_values",
    "C138_negative_sizes",
    "C138_flat_mean"
   ],
   "note": ""
  },
  {
   "property": "C139",
   "status": "proved",
   "theorems": [
    "C139_errors_exist",
    "C139_exact",
    "C139_euler",
    "C139_milstein",
    "C139_second",
    "C139_mean"
   ],
   "note": ""
  },
  {
   "property": "C140",
   "status": "proved",
   "theorems": [
    "C140_black76_strikes",
    "C140_bachelier_strikes",
    "C140_garman_kohlhagen_strikes",
    "C140_black76_forwards",
    "C140_bachelier_forwards",
    "C140_garman_kohlhagen_spots",
    "C140_black76_distribution",
    "C140_bachelier_distribution",
    "C140_garman_kohlhagen_distribution"
   ],
   "note": ""
  },
  {
   "property": "C141",
   "status": "proved",
   "theorems": [
    "C141_black76_exchange",
    "C141_bachelier_exchange",
    "C141_bachelier_mirror",
    "C141_garman_kohlhagen_foreign_domestic"
   ],
   "note": ""
  },
  {
   "property": "C142",
   "status": "proved",
   "theorems": [
    "C142_black76_small_volatility",
    "C142_black76_expiry",
    "C142_bachelier_small_volatility",
    "C142_bachelier_expiry",
    "C142_garman_kohlhagen_small_volatility",
    "C142_garman_kohlhagen_expiry",
    "C142_garman_kohlhagen_expiry_with_forward",
    "C142_black76_large_volatility",
    "C142_black76_long_time",
    "C142_garman_kohlhagen_large_volatility",
    "C142_bachelier_large_volatility"
   ],
   "note": ""
  },
  {
   "property": "C143",
   "status": "proved",
   "theorems": [
    "C143_bachelier_is_the_limit_of_shifted_black76"
   ],
   "note": ""
  },
  {
   "property": "C144",
   "status": "proved",
   "theorems": [
    "C144_curve_discounted",
    "C144_exact_scheme_is_biased",
    "C144_undiscounted",
    "C144_path_discounted",
    "C144_parity",
    "C144_script_keywords"
   ],
   "note": ""
  },
  {
   "property": "C145",
   "status": "proved",
   "theorems": [
    "C145_moments",
    "C145_path_discounted",
    "C145_curve_discounted"
   ],
   "note": ""
  },
  {
   "property": "C146",
   "status": "proved",
   "theorems": [
    "C146_moments",
    "C146_limit"
   ],
   "note": ""
  },
  {
   "property": "C147",
   "status": "proved",
   "theorems": [
    "C147_grid",
    "C147_expected",
    "C147_put_sign",
    "C147_one_step",
    "C147_limit"
   ],
   "note": ""
  },
  {
   "property": "C148",
   "status": "proved",
   "theorems": [
    "C148_same",
    "C148_negative_volatility",
    "C148_slow"
   ],
   "note": ""
  },
  {
   "property": "C149",
   "status": "proved",
   "theorems": [
    "C149_accepted",
    "C149_case",
    "C149_case_list",
    "C149_unreachable",
    "C149_unused_exchanges",
    "C149_iterable",
    "C149_currencies",
    "C149_names",
    "C149_centres",
    "C149_places",
    "C149_empty",
    "C149_years"
   ],
   "note": ""
  },
  {
   "property": "C150",
   "status": "proved",
   "theorems": [
    "C150_volatility",
    "C150_mean_reversion",
    "C150_not_identified",
    "C150_identified"
   ],
   "note": ""
  },
  {
   "property": "C151",
   "status": "proved",
   "theorems": [
    "C151_bounds",
    "C151_plan",
    "C151_both_kept"
   ],
   "note": ""
  },
  {
   "property": "C152",
   "status": "proved",
   "theorems": [
    "C152_heston_1993",
    "C152_lipton",
    "C152_carr_madan"
   ],
   "note": ""
  },
  {
   "property": "C153",
   "status": "proved",
   "theorems": [
    "C153_ois",
    "C153_ois_without_method",
    "C153_term_without_method",
    "C153_term_averages",
    "C153_term_never_compounds"
   ],
   "note": ""
  },
  {
   "property": "C154",
   "status": "proved",
   "theorems": [
    "C154_limit",
    "C154_albrecher",
    "C154_black_scholes",
    "C154_zero"
   ],
   "note": ""
  },
  {
   "property": "C155",
   "status": "proved",
   "theorems": [
    "C155_forward",
    "C155_both",
    "C155_direction_irrelevant",
    "C155_spurious_first_period",
    "C155_spurious_last_period"
   ],
   "note": ""
  },
  {
   "property": "C156",
   "status": "proved",
   "theorems": [
    "C156_vanishing_volvol",
    "C156_no_volvol_near_the_money",
    "C156_flat",
    "C156_wings",
    "C156_symmetric"
   ],
   "note": ""
  },
  {
   "property": "C157",
   "status": "proved",
   "theorems": [
    "C157_black76_equation",
    "C157_bachelier_equation",
    "C157_garman_kohlhagen_equation",
    "C157_vega_from_gamma",
    "C157_euler"
   ],
   "note": ""
  },
  {
   "property": "C158",
   "status": "proved",
   "theorems": [
    "C158_symmetric",
    "C158_zero_strike",
    "C158_shift",
    "C158_unit",
    "C158_positive",
    "C158_negative",
    "C158_at_the_money_error",
    "C158_expiry_bounds"
   ],
   "note": ""
  },
  {
   "property": "C159",
   "status": "proved",
   "theorems": [
    "C159_total_interest",
    "C159_make_schedule",
    "C159_same_interest",
    "C159_30_360_refuted"
   ],
   "note": ""
  },
  {
   "property": "C160",
   "status": "proved",
   "theorems": [
    "C160_black76_ordered_by_variance",
    "C160_bachelier_ordered_by_variance",
    "C160_garman_kohlhagen_ordered_by_variance",
    "C160_between_pillars",
    "C160_arbitrage_refused",
    "C160_daily_surface",
    "C160_daily_fx_surface",
    "C160_overnight_refuted"
   ],
   "note": ""
  },
  {
   "property": "C161",
   "status": "proved",
   "theorems": [
    "C161_one_curve_date",
    "C161_from_curve_date",
    "C161_from_spot_date",
    "C161_other_dates_refused",
    "C161_dates_refused",
    "C161_frames_refused",
    "C161_forwards"
   ],
   "note": ""
  },
  {
   "property": "C162",
   "status": "proved",
   "theorems": [
    "C162_own_rates",
    "C162_refused",
    "C162_rates_discount",
    "C162_same_expiry_same_rates",
    "C162_days_between"
   ],
   "note": ""
  },
  {
   "property": "C163",
   "status": "proved",
   "theorems": [
    "C163_kept_pillars",
    "C163_pillars",
    "C163_tenors_required"
   ],
   "note": ""
  }
 ]
}