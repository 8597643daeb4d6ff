{
 "claims": [
  {
   "property": "C01",
   "status": "proved",
   "theorems": [
    "C01_feas_only_at_approved_centre"
   ],
   "note": ""
  },
  {
   "property": "C02",
   "status": "proved",
   "theorems": [
    "C02_feas_iterations_and_status"
   ],
   "note": ""
  },
  {
   "property": "C03",
   "status": "proved",
   "theorems": [
    "C03_feas_ell_never_loses",
    "C03_feas_ell1d_never_loses"
   ],
   "note": ""
  },
  {
   "property": "C04",
   "status": "proved",
   "theorems": [
    "C04_dc_last_improvement"
   ],
   "note": ""
  },
  {
   "property": "C05",
   "status": "partial",
   "theorems": [
    "C05_dc_xbest_value_spaces_partial",
    "C05_dc_xbest_ell_refuted"
   ],
   "note": "REFUTED for ell (the centre array is updated in place); proved for search spaces whose centre is an immutable value."
  },
  {
   "property": "C06",
   "status": "proved",
   "theorems": [
    "C06_dc_ell_never_loses_better",
    "C06_dc_ell1d_never_loses_better",
    "C06_q_ell_never_loses_better"
   ],
   "note": ""
  },
  {
   "property": "C07",
   "status": "proved",
   "theorems": [
    "C07_dc_never_worse",
    "C07_q_never_worse"
   ],
   "note": ""
  },
  {
   "property": "C08",
   "status": "proved",
   "theorems": [
    "C08_feas_smallenough_bound",
    "C08_dc_smallenough_bound"
   ],
   "note": ""
  },
  {
   "property": "C09",
   "status": "proved",
   "theorems": [
    "C09_q_snapshot_and_retry"
   ],
   "note": ""
  },
  {
   "property": "C10",
   "status": "proved",
   "theorems": [
    "C10_q_stop_reasons"
   ],
   "note": ""
  },
  {
   "property": "C11",
   "status": "proved",
   "theorems": [
    "C11_zero_iterations_raise",
    "C11_positive_limit_never_raises"
   ],
   "note": ""
  },
  {
   "property": "C12",
   "status": "proved",
   "theorems": [
    "C12_bsearch_brackets_threshold"
   ],
   "note": ""
  },
  {
   "property": "C13",
   "status": "proved",
   "theorems": [
    "C13_bsearch_least_integer"
   ],
   "note": ""
  },
  {
   "property": "C14",
   "status": "partial",
   "theorems": [
    "C14_bsearch_num_iters_partial",
    "C14_bsearch_num_iters_refuted"
   ],
   "note": "REFUTED when the iteration limit is exhausted (one too few); proved when the search stops with smallenough."
  },
  {
   "property": "C15",
   "status": "partial",
   "theorems": [
    "C15_adaptor_value_spaces_partial",
    "C15_adaptor_ell_refuted"
   ],
   "note": "REFUTED for ell (copy shares the centre array, so failed probes move x_best); proved for spaces whose centre is an immutable value, e.g. ell1d. C65 states the exact behaviour for ell."
  },
  {
   "property": "C16",
   "status": "partial",
   "theorems": [
    "C16_copy_same_and_frame_partial",
    "C16_copy_independent_refuted"
   ],
   "note": "REFUTED for the centre (shared array); proved: same matrix, size, flags; only the centre array is written. C64 states the exact sharing."
  },
  {
   "property": "C17",
   "status": "proved",
   "theorems": [
    "C17_ellipsoid_is_quadratic_form",
    "C17_deep_cut_keeps",
    "C17_reachable_well_formed"
   ],
   "note": ""
  },
  {
   "property": "C18",
   "status": "proved",
   "theorems": [
    "C18_parallel_cut_keeps"
   ],
   "note": ""
  },
  {
   "property": "C19",
   "status": "proved",
   "theorems": [
    "C19_nosoln_means_empty",
    "C19_scalar_miss_gives_nosoln"
   ],
   "note": ""
  },
  {
   "property": "C20",
   "status": "proved",
   "theorems": [
    "C20_ell_unsuccessful_update_changes_nothing",
    "C20_ell1d_unsuccessful_update_changes_nothing"
   ],
   "note": ""
  },
  {
   "property": "C21",
   "status": "proved",
   "theorems": [
    "C21_stays_symmetric_psd",
    "C21_stays_proper"
   ],
   "note": ""
  },
  {
   "property": "C22",
   "status": "proved",
   "theorems": [
    "C22_single_cut_volume",
    "C22_parallel_cut_volume",
    "C22_parallel_deep_rate"
   ],
   "note": ""
  },
  {
   "property": "C23",
   "status": "proved",
   "theorems": [
    "C23_no_defer_same_ellipsoids",
    "C23_interior_cuts_suffice"
   ],
   "note": ""
  },
  {
   "property": "C24",
   "status": "partial",
   "theorems": [
    "C24_update_defined_partial",
    "C24_update_defined_refuted"
   ],
   "note": "REFUTED (division by zero for an exceptional set of offsets); the exact exceptional set is proved."
  },
  {
   "property": "C25",
   "status": "proved",
   "theorems": [
    "C25_ell1d_exact_intersection",
    "C25_ell1d_zero_gradient_drops_half",
    "C25_ell1d_construct",
    "C25_ell1d_set_xc"
   ],
   "note": ""
  },
  {
   "property": "C26",
   "status": "proved",
   "theorems": [
    "C26_dimension_one_rejected",
    "C26_construction"
   ],
   "note": ""
  },
  {
   "property": "C27",
   "status": "proved",
   "theorems": [
    "C27_factorize_decides_pd",
    "C27_factor_decides_pd"
   ],
   "note": ""
  },
  {
   "property": "C28",
   "status": "proved",
   "theorems": [
    "C28_witness_certifies",
    "C28_no_witness_after_success",
    "C28_witness_repeatable",
    "C28_new_object"
   ],
   "note": ""
  },
  {
   "property": "C29",
   "status": "proved",
   "theorems": [
    "C29_lazy_accesses",
    "C29_only_lower_triangle_matters"
   ],
   "note": ""
  },
  {
   "property": "C30",
   "status": "proved",
   "theorems": [
    "C30_history_independent"
   ],
   "note": ""
  },
  {
   "property": "C31",
   "status": "proved",
   "theorems": [
    "C31_sqrt_is_cholesky"
   ],
   "note": ""
  },
  {
   "property": "C32",
   "status": "partial",
   "theorems": [
    "C32_psd_accepted_partial",
    "C32_semidefinite_exact_refuted"
   ],
   "note": "REFUTED (the indefinite matrix [[0,1],[1,0]] is accepted); proved: every positive semidefinite matrix is accepted, and every rejection certifies v'Av < 0 (C28)."
  },
  {
   "property": "C33",
   "status": "proved",
   "theorems": [
    "C33_lmi_decides",
    "C33_lmi_old_decides",
    "C33_lmi0_decides"
   ],
   "note": ""
  },
  {
   "property": "C34",
   "status": "proved",
   "theorems": [
    "C34_lmi_cut_valid",
    "C34_lmi_old_cut_valid",
    "C34_lmi0_cut_valid"
   ],
   "note": ""
  },
  {
   "property": "C35",
   "status": "proved",
   "theorems": [
    "C35_lmi_old_same_as_lmi"
   ],
   "note": ""
  },
  {
   "property": "C36",
   "status": "proved",
   "theorems": [
    "C36_qmi_decides",
    "C36_qmi_needs_update"
   ],
   "note": ""
  },
  {
   "property": "C37",
   "status": "partial",
   "theorems": [
    "C37_qmi_cut_valid_symmetric_partial",
    "C37_qmi_cut_valid_refuted"
   ],
   "note": "REFUTED for non-symmetric F_k (rows of F_k used where columns are needed); proved for symmetric F_k."
  },
  {
   "property": "C38",
   "status": "proved",
   "theorems": [
    "C38_lsq_oracle_valid"
   ],
   "note": ""
  },
  {
   "property": "C39",
   "status": "proved",
   "theorems": [
    "C39_mle_oracle",
    "C39_new_oracle"
   ],
   "note": ""
  },
  {
   "property": "C40",
   "status": "proved",
   "theorems": [
    "C40_find_neg_cycle",
    "C40_finds_iff_negative_cycle",
    "C40_answer_is_cycle_any_arithmetic"
   ],
   "note": ""
  },
  {
   "property": "C41",
   "status": "proved",
   "theorems": [
    "C41_network_oracle",
    "C41_repo_finder_qualifies"
   ],
   "note": ""
  },
  {
   "property": "C42",
   "status": "proved",
   "theorems": [
    "C42_cycle_ratio_oracle"
   ],
   "note": ""
  },
  {
   "property": "C43",
   "status": "proved",
   "theorems": [
    "C43_optscaling_oracle",
    "C43_self_loop_raises"
   ],
   "note": ""
  },
  {
   "property": "C44",
   "status": "proved",
   "theorems": [
    "C44_lowpass_reports_iff_feasible",
    "C44_verdict_any_arithmetic",
    "C44_empty_stopband_raises",
    "C44_new_oracle",
    "C44_round_robin"
   ],
   "note": ""
  },
  {
   "property": "C45",
   "status": "proved",
   "theorems": [
    "C45_lowpass_cut_valid"
   ],
   "note": ""
  },
  {
   "property": "C46",
   "status": "partial",
   "theorems": [
    "C46_csd_cut_translated_partial",
    "C46_csd_recentred_cut_refuted",
    "C46_profit_q_cut_translated_partial",
    "C46_profit_q_recentred_cut_refuted"
   ],
   "note": "REFUTED for csdlowpass_oracle and for profit_q_oracle: the offset is added with the wrong sign, and a feasible filter / a feasible integer point of better profit is cut off. The _partial theorems give the exact half-space described by the returned cut (the cut of the rounded point translated by twice the rounding error)."
  },
  {
   "property": "C47",
   "status": "proved",
   "theorems": [
    "C47_rounded_point_present"
   ],
   "note": ""
  },
  {
   "property": "C48",
   "status": "proved",
   "theorems": [
    "C48_inverse_spectral_fact"
   ],
   "note": ""
  },
  {
   "property": "C49",
   "status": "partial",
   "theorems": [
    "C49_csd_accurate_partial",
    "C49_csd_exact",
    "C49_csd_accurate_refuted"
   ],
   "note": "Exactness on multiples of 2^-places proved for all x. The (2/3)2^-places bound is REFUTED for 2/3 < |x| < 1 and proved everywhere else; C69 gives the bound valid for all x."
  },
  {
   "property": "C50",
   "status": "partial",
   "theorems": [
    "C50_csd_shape",
    "C50_csd_canonical_partial",
    "C50_csd_canonical_refuted",
    "C50_csdfixed_shape",
    "C50_csdfixed_canonical_partial",
    "C50_csdfixed_canonical_refuted"
   ],
   "note": "Character set, single point and leading non-zero digit proved for all x. Canonicity is REFUTED for 2/3 < |x| < 1 (to_csd(3/4, 2) = \"0.++\") and proved everywhere else."
  },
  {
   "property": "C51",
   "status": "partial",
   "theorems": [
    "C51_round_trip_integer",
    "C51_round_trip_point_partial",
    "C51_round_trip_fraction",
    "C51_round_trip_point_refuted"
   ],
   "note": "Integers: proved. Strings with a point: REFUTED when |value| < 1 and the string has a non-zero leading digit; proved when |value| >= 1, and for \"0.ddd\" strings."
  },
  {
   "property": "C52",
   "status": "proved",
   "theorems": [
    "C52_csdfixed_budget",
    "C52_csdfixed_zero_budget"
   ],
   "note": ""
  },
  {
   "property": "C53",
   "status": "proved",
   "theorems": [
    "C53_to_decimal_value",
    "C53_to_decimal_rejects"
   ],
   "note": ""
  },
  {
   "property": "C54",
   "status": "proved",
   "theorems": [
    "C54_profit_report",
    "C54_profit_reports_iff"
   ],
   "note": ""
  },
  {
   "property": "C55",
   "status": "proved",
   "theorems": [
    "C55_profit_cut_valid"
   ],
   "note": ""
  },
  {
   "property": "C56",
   "status": "proved",
   "theorems": [
    "C56_rb_guaranteed_profit",
    "C56_rb_history_independent"
   ],
   "note": ""
  },
  {
   "property": "C57",
   "status": "proved",
   "theorems": [
    "C57_problem_solve",
    "C57_improved_has_point"
   ],
   "note": ""
  },
  {
   "property": "C58",
   "status": "partial",
   "theorems": [
    "C58_first_infeasible_has_no_value_partial",
    "C58_new_problem",
    "C58_stale_value_refuted"
   ],
   "note": "REFUTED for a Problem solved before (the earlier value is returned); proved for a Problem without an earlier value. C68 states the exact behaviour."
  },
  {
   "property": "C59",
   "status": "proved",
   "theorems": [
    "C59_mono_oracle",
    "C59_mono_decreasing_oracle2"
   ],
   "note": ""
  },
  {
   "property": "C60",
   "status": "proved",
   "theorems": [
    "C60_distance_matrix",
    "C60_poly_matrix",
    "C60_corr_qmi_cut_valid"
   ],
   "note": ""
  },
  {
   "property": "C61",
   "status": "proved",
   "theorems": [
    "C61_lmi_end_to_end"
   ],
   "note": ""
  },
  {
   "property": "C62",
   "status": "proved",
   "theorems": [
    "C62_fib"
   ],
   "note": ""
  },
  {
   "property": "C63",
   "status": "proved",
   "theorems": [
    "C63_dc_xbest_ell_is_final_centre"
   ],
   "note": ""
  },
  {
   "property": "C64",
   "status": "proved",
   "theorems": [
    "C64_copy_shares_centre",
    "C64_callers_array_follows_centre"
   ],
   "note": ""
  },
  {
   "property": "C65",
   "status": "proved",
   "theorems": [
    "C65_adaptor_ell_tracks_working_copy"
   ],
   "note": ""
  },
  {
   "property": "C66",
   "status": "proved",
   "theorems": [
    "C66_lsq_end_to_end"
   ],
   "note": ""
  },
  {
   "property": "C67",
   "status": "proved",
   "theorems": [
    "C67_corr_poly_reproduces"
   ],
   "note": ""
  },
  {
   "property": "C68",
   "status": "proved",
   "theorems": [
    "C68_infeasible_keeps_previous_result"
   ],
   "note": ""
  },
  {
   "property": "C69",
   "status": "proved",
   "theorems": [
    "C69_csd_error",
    "C69_csd_error_any_start"
   ],
   "note": ""
  },
  {
   "property": "C70",
   "status": "proved",
   "theorems": [
    "C70_csdfixed_error",
    "C70_csdfixed_any_start"
   ],
   "note": ""
  },
  {
   "property": "C71",
   "status": "proved",
   "theorems": [
    "C71_csdfixed_no_budget"
   ],
   "note": ""
  },
  {
   "property": "C72",
   "status": "proved",
   "theorems": [
    "C72_cycle_ratio_end_to_end"
   ],
   "note": ""
  },
  {
   "property": "C73",
   "status": "proved",
   "theorems": [
    "C73_optscaling_end_to_end"
   ],
   "note": ""
  },
  {
   "property": "C74",
   "status": "proved",
   "theorems": [
    "C74_lowpass_end_to_end"
   ],
   "note": ""
  },
  {
   "property": "C75",
   "status": "proved",
   "theorems": [
    "C75_rb_cut_valid"
   ],
   "note": ""
  },
  {
   "property": "C76",
   "status": "proved",
   "theorems": [
    "C76_profit_q_reports_integral"
   ],
   "note": ""
  },
  {
   "property": "C77",
   "status": "proved",
   "theorems": [
    "C77_profit_end_to_end",
    "C77_profit_rb_end_to_end"
   ],
   "note": ""
  },
  {
   "property": "C78",
   "status": "proved",
   "theorems": [
    "C78_profit_q_integer_result",
    "C78_profit_q_no_missing_point"
   ],
   "note": ""
  },
  {
   "property": "C79",
   "status": "proved",
   "theorems": [
    "C79_feas_iteration_bound",
    "C79_feas_finds_a_point"
   ],
   "note": ""
  },
  {
   "property": "C80",
   "status": "proved",
   "theorems": [
    "C80_dc_iteration_bound"
   ],
   "note": ""
  },
  {
   "property": "C81",
   "status": "proved",
   "theorems": [
    "C81_dc_convex_rate"
   ],
   "note": ""
  },
  {
   "property": "C82",
   "status": "proved",
   "theorems": [
    "C82_lmi_feasibility_found"
   ],
   "note": ""
  },
  {
   "property": "C83",
   "status": "proved",
   "theorems": [
    "C83_mle_convex"
   ],
   "note": ""
  },
  {
   "property": "C84",
   "status": "proved",
   "theorems": [
    "C84_mle_end_to_end",
    "C84_mle_rate"
   ],
   "note": ""
  },
  {
   "property": "C85",
   "status": "proved",
   "theorems": [
    "C85_float_csd_error",
    "C85_float_csd_any_start",
    "C85_float_csd_overflow"
   ],
   "note": ""
  },
  {
   "property": "C86",
   "status": "partial",
   "theorems": [
    "C86_float_agrees",
    "C86_float_canonical_partial",
    "C86_float_canonical_refuted"
   ],
   "note": "REFUTED: the double just above 4/3 gives \"+.+0-0\", because 1.5*x rounds to 2.0 (for any log with log(2.0,2) = 1.0). Proved: agreement with exact arithmetic digit by digit for inputs of at most 51 bits, and canonicity for fixed-point inputs of at most 30 bits (log error <= 2^-34) outside 2/3 < |x| < 1."
  },
  {
   "property": "C87",
   "status": "proved",
   "theorems": [
    "C87_float_to_decimal_exact",
    "C87_float_to_decimal_rejects"
   ],
   "note": ""
  },
  {
   "property": "C88",
   "status": "proved",
   "theorems": [
    "C88_float_csdfixed"
   ],
   "note": ""
  },
  {
   "property": "C89",
   "status": "proved",
   "theorems": [
    "C89_min_phase_samples",
    "C89_power_samples",
    "C89_faults"
   ],
   "note": ""
  },
  {
   "property": "C90",
   "status": "proved",
   "theorems": [
    "C90_spectral_round_trip"
   ],
   "note": ""
  },
  {
   "property": "C91",
   "status": "proved",
   "theorems": [
    "C91_lowpass_rate"
   ],
   "note": ""
  },
  {
   "property": "C92",
   "status": "proved",
   "theorems": [
    "C92_lsq_rate"
   ],
   "note": ""
  },
  {
   "property": "C93",
   "status": "proved",
   "theorems": [
    "C93_optscaling_rate"
   ],
   "note": ""
  },
  {
   "property": "C94",
   "status": "proved",
   "theorems": [
    "C94_profit_rate",
    "C94_profit_rb_rate"
   ],
   "note": ""
  },
  {
   "property": "C95",
   "status": "proved",
   "theorems": [
    "C95_lmi_opt_end_to_end",
    "C95_lmi_opt_rate"
   ],
   "note": ""
  },
  {
   "property": "C96",
   "status": "proved",
   "theorems": [
    "C96_fir_oracle",
    "C96_fir_end_to_end",
    "C96_fir_rate"
   ],
   "note": ""
  },
  {
   "property": "C97",
   "status": "proved",
   "theorems": [
    "C97_quasi1_oracle",
    "C97_quasi1_end_to_end",
    "C97_quasi1_rate"
   ],
   "note": ""
  },
  {
   "property": "C98",
   "status": "proved",
   "theorems": [
    "C98_quasi2_oracle",
    "C98_quasi2_end_to_end",
    "C98_quasi2_rate"
   ],
   "note": ""
  },
  {
   "property": "C99",
   "status": "partial",
   "theorems": [
    "C99_linear_end_to_end_partial",
    "C99_returned_point_refuted",
    "C99_linear_rate"
   ],
   "note": "First sentence REFUTED: the oracle hands t back (not None) with the cuts at infeasible points, so a run that never saw a feasible point still returns one. The statements about the value, the flag and the kept points are proved."
  },
  {
   "property": "C100",
   "status": "proved",
   "theorems": [
    "C100_linear_feasibility",
    "C100_linear_found"
   ],
   "note": ""
  },
  {
   "property": "C101",
   "status": "proved",
   "theorems": [
    "C101_vdc_radical_inverse",
    "C101_vdc_injective",
    "C101_vdc_diverges",
    "C101_vdcorput_calls"
   ],
   "note": ""
  },
  {
   "property": "C102",
   "status": "proved",
   "theorems": [
    "C102_vdcorput_stratified"
   ],
   "note": ""
  },
  {
   "property": "C103",
   "status": "proved",
   "theorems": [
    "C103_halton_n_stratified",
    "C103_halton_is_halton_n"
   ],
   "note": ""
  },
  {
   "property": "C104",
   "status": "proved",
   "theorems": [
    "C104_circle_on_circle",
    "C104_sphere_on_sphere",
    "C104_hopf_on_sphere",
    "C104_sphere_draws",
    "C104_hopf_draws",
    "C104_short_bases"
   ],
   "note": ""
  },
  {
   "property": "C105",
   "status": "proved",
   "theorems": [
    "C105_create_2d_sites"
   ],
   "note": ""
  },
  {
   "property": "C106",
   "status": "proved",
   "theorems": [
    "C106_isotropic",
    "C106_repeated_site_raises",
    "C106_test_problem"
   ],
   "note": ""
  },
  {
   "property": "C107",
   "status": "proved",
   "theorems": [
    "C107_vdc_base2_exact",
    "C107_vdc_error",
    "C107_vdc_reaches_one",
    "C107_create_2d_sites"
   ],
   "note": ""
  },
  {
   "property": "C108",
   "status": "proved",
   "theorems": [
    "C108_vdcorput_generator",
    "C108_halton_generator"
   ],
   "note": ""
  },
  {
   "property": "C109",
   "status": "proved",
   "theorems": [
    "C109_prime_table"
   ],
   "note": ""
  },
  {
   "property": "C110",
   "status": "proved",
   "theorems": [
    "C110_interval_unique",
    "C110_eval_is_spline",
    "C110_unity_and_bounds"
   ],
   "note": ""
  },
  {
   "property": "C111",
   "status": "proved",
   "theorems": [
    "C111_generate_bspline_info",
    "C111_bspline_raises",
    "C111_corr_bspline_reproduces"
   ],
   "note": ""
  },
  {
   "property": "C112",
   "status": "partial",
   "theorems": [
    "C112_bspline_monotone_partial",
    "C112_bspline_monotone_refuted",
    "C112_mono_oracle2_last_refuted"
   ],
   "note": "REFUTED: the knots start at 0, so distances below t[2] are extrapolated, and non-increasing coefficients (1, 0.85, 0.5) with a positive definite fitted matrix give a function with f(0) < f(0.24); and with a core that passes only the m coefficients the constraint ignores the last one. Proved: the exact condition on the coefficients for monotonicity on [t[2], t[m]] and on [0, last knot]."
  },
  {
   "property": "C113",
   "status": "proved",
   "theorems": [
    "C113_factor",
    "C113_witness",
    "C113_same_as_chol_ext",
    "C113_history_independent"
   ],
   "note": ""
  },
  {
   "property": "C114",
   "status": "partial",
   "theorems": [
    "C114_certificate_strict_refuted",
    "C114_certificate_strict_partial"
   ],
   "note": "REFUTED for singular positive semidefinite leading blocks (witness [[1,1],[1,1]]: value 0). Proved: the value is -1 if the failing block is not positive semidefinite and 0 if it is."
  },
  {
   "property": "C115",
   "status": "proved",
   "theorems": [
    "C115_lmi3",
    "C115_lmi2"
   ],
   "note": ""
  },
  {
   "property": "C116",
   "status": "proved",
   "theorems": [
    "C116_qmi_c_never_accepts"
   ],
   "note": ""
  },
  {
   "property": "C117",
   "status": "proved",
   "theorems": [
    "C117_chol64_total",
    "C117_chol64_accepts",
    "C117_chol64_rejects"
   ],
   "note": ""
  },
  {
   "property": "C118",
   "status": "partial",
   "theorems": [
    "C118_chol64_decides_refuted",
    "C118_chol64_decides_partial"
   ],
   "note": "REFUTED in both directions by 2x2 matrices of doubles. Proved: the answer is right whenever the form is outside +-n(n+1) 2^-49 (M + 2^-1000) |x|^2 and the diagonal is at most M <= 2^900."
  },
  {
   "property": "C119",
   "status": "proved",
   "theorems": [
    "C119_bsearch64_brackets"
   ],
   "note": ""
  },
  {
   "property": "C120",
   "status": "partial",
   "theorems": [
    "C120_bsearch64_reaches_tol_partial",
    "C120_bsearch64_reaches_tol_refuted"
   ],
   "note": "REFUTED for tolerances below the spacing of doubles near the bracket (the midpoint of two adjacent doubles is one of them). Proved for tol >= 2^-49 (B + 2^-1000)."
  },
  {
   "property": "C121",
   "status": "proved",
   "theorems": [
    "C121_ell64_matrix_symmetric",
    "C121_ell64_init_symmetric"
   ],
   "note": ""
  },
  {
   "property": "C122",
   "status": "proved",
   "theorems": [
    "C122_ell1d64_update"
   ],
   "note": ""
  },
  {
   "property": "C123",
   "status": "proved",
   "theorems": [
    "C123_ell1d64_runs",
    "C123_ell1d64_halves"
   ],
   "note": ""
  },
  {
   "property": "C124",
   "status": "partial",
   "theorems": [
    "C124_no_point_lost_refuted",
    "C124_no_point_lost_partial"
   ],
   "note": "REFUTED for ell1d and for ell (fresh unit disc, one deep cut). Proved for ell1d: the loss is at most 2^-48 (B + 2^-1000); the bound for ell is C142."
  },
  {
   "property": "C125",
   "status": "partial",
   "theorems": [
    "C125_radius_nonneg_refuted",
    "C125_radius_nonneg_partial"
   ],
   "note": "REFUTED: the radius becomes -2^-53. Proved: it is never below -2^-48 (B + 2^-1000)."
  },
  {
   "property": "C126",
   "status": "proved",
   "theorems": [
    "C126_mono64_decides"
   ],
   "note": ""
  },
  {
   "property": "C127",
   "status": "proved",
   "theorems": [
    "C127_finder64_outcome",
    "C127_finder64_weights"
   ],
   "note": ""
  },
  {
   "property": "C128",
   "status": "partial",
   "theorems": [
    "C128_no_assertion_refuted",
    "C128_no_assertion_partial"
   ],
   "note": "REFUTED: the 2-cycle with weights -1.0 and 0.9999999999999999, labels 0.0, raises AssertionError. Proved for weights and labels that are multiples of one power of two and bounded so that sums stay exact."
  },
  {
   "property": "C129",
   "status": "partial",
   "theorems": [
    "C129_exact_answer_refuted",
    "C129_exact_answer_partial"
   ],
   "note": "REFUTED both ways with labels of magnitude 2^53 and more. Proved for weights and labels that are multiples of one power of two with exact sums; C127_finder64_weights gives the error bound in general."
  },
  {
   "property": "C130",
   "status": "proved",
   "theorems": [
    "C130_lmi64_decides",
    "C130_lmi0_64_decides"
   ],
   "note": ""
  },
  {
   "property": "C131",
   "status": "proved",
   "theorems": [
    "C131_lmi64_feasible"
   ],
   "note": ""
  },
  {
   "property": "C132",
   "status": "proved",
   "theorems": [
    "C132_lmi_opt64_returned"
   ],
   "note": ""
  },
  {
   "property": "C133",
   "status": "proved",
   "theorems": [
    "C133_table",
    "C133_refill",
    "C133_table_is_to_csd"
   ],
   "note": ""
  },
  {
   "property": "C134",
   "status": "proved",
   "theorems": [
    "C134_script_fails",
    "C134_too_short",
    "C134_show_fails"
   ],
   "note": ""
  },
  {
   "property": "C135",
   "status": "proved",
   "theorems": [
    "C135_imi_decides"
   ],
   "note": ""
  },
  {
   "property": "C136",
   "status": "partial",
   "theorems": [
    "C136_imi_cut_refuted",
    "C136_imi_cut_partial"
   ],
   "note": "REFUTED: the added scalar -2 v1.v2 makes the cut exclude feasible points (order 1, x = (1, -1), z = (2, 2)). Proved when the factorisation stops inside the first block."
  },
  {
   "property": "C137",
   "status": "proved",
   "theorems": [
    "C137_sdp_call",
    "C137_sdp_never_solves"
   ],
   "note": ""
  },
  {
   "property": "C138",
   "status": "proved",
   "theorems": [
    "C138_rank1_only_trace_cuts",
    "C138_rank1_which_fault"
   ],
   "note": ""
  },
  {
   "property": "C139",
   "status": "proved",
   "theorems": [
    "C139_cycle_ratio_rate"
   ],
   "note": ""
  },
  {
   "property": "C140",
   "status": "proved",
   "theorems": [
    "C140_ratio64_oracle",
    "C140_ratio64_returned"
   ],
   "note": ""
  },
  {
   "property": "C141",
   "status": "partial",
   "theorems": [
    "C141_negative_tsq",
    "C141_kappa_positive_refuted",
    "C141_kappa_nonneg_partial"
   ],
   "note": "REFUTED (kappa becomes negative after a cut whose beta is the rounded square root). Proved: kappa stays nonnegative when beta^2 <= computed tsq, and the exact answer of update for a negative tsq."
  },
  {
   "property": "C142",
   "status": "proved",
   "theorems": [
    "C142_ell_update_loss",
    "C142_nosoln_margin"
   ],
   "note": ""
  },
  {
   "property": "C143",
   "status": "proved",
   "theorems": [
    "C143_zero_gradient",
    "C143_zero_gradient_deep",
    "C143_run_result_is_nan"
   ],
   "note": ""
  },
  {
   "property": "C144",
   "status": "proved",
   "theorems": [
    "C144_nan_gradient",
    "C144_dc_runs_to_limit",
    "C144_feas_accepts_nan_or_limit",
    "C144_mono_accepts_nan"
   ],
   "note": ""
  },
  {
   "property": "C145",
   "status": "proved",
   "theorems": [
    "C145_value_attained"
   ],
   "note": ""
  },
  {
   "property": "C146",
   "status": "proved",
   "theorems": [
    "C146_lsq_value_attained",
    "C146_lsq_run",
    "C146_no_basis_raises",
    "C146_lsq_corr_poly"
   ],
   "note": ""
  },
  {
   "property": "C147",
   "status": "proved",
   "theorems": [
    "C147_mle_returns_only_improved",
    "C147_lsq2_returns_only_improved",
    "C147_nothing_found_raises",
    "C147_lsq2_nothing_found_raises",
    "C147_no_basis_raises"
   ],
   "note": ""
  },
  {
   "property": "C148",
   "status": "partial",
   "theorems": [
    "C148_rejected_partial",
    "C148_rejected_refuted",
    "C148_x_best_refuted"
   ],
   "note": "REFUTED: copies of an ell share the centre array, so every probe moves the ellipsoid of the next one; witnesses on the unit disc for both claims (a value with solutions in the disc is rejected with nosoln; x_best violates the problem of the returned value). Proved: a rejected value has no solution in the ellipsoid of the same shape around the centre left by the earlier probes."
  },
  {
   "property": "C149",
   "status": "proved",
   "theorems": [
    "C149_qmi64_decides"
   ],
   "note": ""
  },
  {
   "property": "C150",
   "status": "proved",
   "theorems": [
    "C150_lsq64_decides"
   ],
   "note": ""
  },
  {
   "property": "C151",
   "status": "proved",
   "theorems": [
    "C151_lsq64_returned"
   ],
   "note": ""
  },
  {
   "property": "C152",
   "status": "proved",
   "theorems": [
    "C152_update_moves",
    "C152_run_keeps",
    "C152_run_nosoln"
   ],
   "note": ""
  },
  {
   "property": "C153",
   "status": "proved",
   "theorems": [
    "C153_feas_nosoln",
    "C153_dc_nosoln"
   ],
   "note": ""
  },
  {
   "property": "C154",
   "status": "proved",
   "theorems": [
    "C154_lowpass64"
   ],
   "note": ""
  },
  {
   "property": "C155",
   "status": "proved",
   "theorems": [
    "C155_lowpass64_returned"
   ],
   "note": ""
  },
  {
   "property": "C156",
   "status": "proved",
   "theorems": [
    "C156_lmi64_cut",
    "C156_lmi64_cut_valid",
    "C156_lmi0_64_cut"
   ],
   "note": ""
  },
  {
   "property": "C157",
   "status": "proved",
   "theorems": [
    "C157_lmi64_nosoln"
   ],
   "note": ""
  },
  {
   "property": "C158",
   "status": "proved",
   "theorems": [
    "C158_lmi_opt64_nosoln"
   ],
   "note": ""
  },
  {
   "property": "C159",
   "status": "proved",
   "theorems": [
    "C159_budget_every_double",
    "C159_multiplierless64"
   ],
   "note": ""
  },
  {
   "property": "C160",
   "status": "proved",
   "theorems": [
    "C160_parallel_loss",
    "C160_parallel_returns",
    "C160_parallel_nosoln"
   ],
   "note": ""
  },
  {
   "property": "C161",
   "status": "proved",
   "theorems": [
    "C161_run_keeps",
    "C161_feas_nosoln",
    "C161_dc_nosoln"
   ],
   "note": ""
  },
  {
   "property": "C162",
   "status": "proved",
   "theorems": [
    "C162_lowpass64_nosoln"
   ],
   "note": ""
  },
  {
   "property": "C163",
   "status": "partial",
   "theorems": [
    "C163_ell1d64_init",
    "C163_ell1d64_copy_partial",
    "C163_ell1d64_copy_refuted"
   ],
   "note": "REFUTED for copy() (the copy of [1 - 2^-60, 1 + 2^-60] is the single point 1). Proved: construction up to rounding, copy exact when both end points are doubles and up to 2^-48 (B + 2^-1000) otherwise."
  },
  {
   "property": "C164",
   "status": "proved",
   "theorems": [
    "C164_feas_nosoln",
    "C164_dc_nosoln",
    "C164_feas_stops"
   ],
   "note": ""
  },
  {
   "property": "C165",
   "status": "proved",
   "theorems": [
    "C165_csdigit",
    "C165_csdigit_raises",
    "C165_same_as_to_csd"
   ],
   "note": ""
  },
  {
   "property": "C166",
   "status": "partial",
   "theorems": [
    "C166_default_range",
    "C166_fits_refuted",
    "C166_fits_partial"
   ],
   "note": "REFUTED: csdigit(3, 2, 0) returns the three digits +0-. with only a warning. Proved for |x| 2^resolution rounding to at most 2^(range+resolution-1), and for the default range."
  },
  {
   "property": "C167",
   "status": "partial",
   "theorems": [
    "C167_digits_value_refuted",
    "C167_digits_value_partial",
    "C167_negative_width",
    "C167_negative_range"
   ],
   "note": "REFUTED: csdigit(1/16, -2, 6) returns .0+0000, a quarter, with pos 1/16 (the zeros are appended instead of prepended). Proved for range >= 0; for range < 0 the exact factor between the text and pos - neg is proved, and range + resolution < 0 is rejected."
  },
  {
   "property": "C168",
   "status": "proved",
   "theorems": [
    "C168_fir_is_lowpass",
    "C168_fir"
   ],
   "note": ""
  },
  {
   "property": "C169",
   "status": "proved",
   "theorems": [
    "C169_scaling64_oracle",
    "C169_scaling64_returned"
   ],
   "note": ""
  },
  {
   "property": "C170",
   "status": "proved",
   "theorems": [
    "C170_scaling64_nosoln"
   ],
   "note": ""
  },
  {
   "property": "C171",
   "status": "proved",
   "theorems": [
    "C171_ratio64_nosoln"
   ],
   "note": ""
  },
  {
   "property": "C172",
   "status": "proved",
   "theorems": [
    "C172_poly2_cut",
    "C172_poly2_fit_never_returns"
   ],
   "note": ""
  },
  {
   "property": "C173",
   "status": "proved",
   "theorems": [
    "C173_bsp2_run",
    "C173_bsp2_fit"
   ],
   "note": ""
  },
  {
   "property": "C174",
   "status": "proved",
   "theorems": [
    "C174_bisection_fits_never_return"
   ],
   "note": ""
  },
  {
   "property": "C175",
   "status": "proved",
   "theorems": [
    "C175_bsearch_fractions",
    "C175_fractions_bracket"
   ],
   "note": ""
  },
  {
   "property": "C176",
   "status": "proved",
   "theorems": [
    "C176_qmi64_cut",
    "C176_qmi64_cut_valid"
   ],
   "note": ""
  },
  {
   "property": "C177",
   "status": "proved",
   "theorems": [
    "C177_lsq64_nosoln"
   ],
   "note": ""
  },
  {
   "property": "C178",
   "status": "proved",
   "theorems": [
    "C178_profit64_call",
    "C178_profit64_cut"
   ],
   "note": ""
  },
  {
   "property": "C179",
   "status": "proved",
   "theorems": [
    "C179_profit64_value",
    "C179_profit64_nosoln"
   ],
   "note": ""
  },
  {
   "property": "C180",
   "status": "proved",
   "theorems": [
    "C180_rb64_call",
    "C180_rb64_cut"
   ],
   "note": ""
  },
  {
   "property": "C181",
   "status": "proved",
   "theorems": [
    "C181_rb64_value",
    "C181_rb64_nosoln"
   ],
   "note": ""
  },
  {
   "property": "C182",
   "status": "proved",
   "theorems": [
    "C182_profit_q64_call",
    "C182_profit_q64_cut"
   ],
   "note": ""
  },
  {
   "property": "C183",
   "status": "proved",
   "theorems": [
    "C183_profit_q64_value"
   ],
   "note": ""
  },
  {
   "property": "C184",
   "status": "proved",
   "theorems": [
    "C184_mono64_call",
    "C184_mono_lsq64_returned"
   ],
   "note": ""
  },
  {
   "property": "C185",
   "status": "proved",
   "theorems": [
    "C185_mono_lsq64_nosoln"
   ],
   "note": ""
  },
  {
   "property": "C186",
   "status": "proved",
   "theorems": [
    "C186_mle64_call",
    "C186_mle64_returned"
   ],
   "note": ""
  },
  {
   "property": "C187",
   "status": "proved",
   "theorems": [
    "C187_mle64_cut"
   ],
   "note": ""
  },
  {
   "property": "C188",
   "status": "proved",
   "theorems": [
    "C188_sqrt64",
    "C188_lmi0_64_sqrt"
   ],
   "note": ""
  },
  {
   "property": "C189",
   "status": "proved",
   "theorems": [
    "C189_linear64_call",
    "C189_linear64_found",
    "C189_linear64_nosoln"
   ],
   "note": ""
  },
  {
   "property": "C190",
   "status": "proved",
   "theorems": [
    "C190_linear64_opt_call",
    "C190_linear64_value",
    "C190_linear64_opt_nosoln"
   ],
   "note": ""
  }
 ]
}