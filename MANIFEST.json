{
 "claims": [
  {
   "property": "C01",
   "status": "proved",
   "theorems": [
    "C01_int_to_bits_and_back"
   ],
   "note": ""
  },
  {
   "property": "C02",
   "status": "proved",
   "theorems": [
    "C02_bits_to_int_and_back",
    "C02_array_form"
   ],
   "note": ""
  },
  {
   "property": "C03",
   "status": "proved",
   "theorems": [
    "C03_too_wide",
    "C03_negative"
   ],
   "note": ""
  },
  {
   "property": "C04",
   "status": "proved",
   "theorems": [
    "C04_history_independent",
    "C04_decimal2bitarray_aliasing_refuted"
   ],
   "note": "The negative half (decimal2bitarray hands out its cached array) is C04_decimal2bitarray_aliasing_refuted, with a concrete history."
  },
  {
   "property": "C05",
   "status": "proved",
   "theorems": [
    "C05_hamming_counts",
    "C05_hamming_metric",
    "C05_hamming_shape"
   ],
   "note": ""
  },
  {
   "property": "C06",
   "status": "proved",
   "theorems": [
    "C06_metric",
    "C06_shape"
   ],
   "note": ""
  },
  {
   "property": "C07",
   "status": "proved",
   "theorems": [
    "C07_upsample"
   ],
   "note": ""
  },
  {
   "property": "C08",
   "status": "proved",
   "theorems": [
    "C08_power",
    "C08_upsample",
    "C08_empty"
   ],
   "note": ""
  },
  {
   "property": "C09",
   "status": "proved",
   "theorems": [
    "C09_pn_recurrence",
    "C09_pn_errors",
    "C09_pn_prefix",
    "C09_pn_linear"
   ],
   "note": ""
  },
  {
   "property": "C10",
   "status": "proved",
   "theorems": [
    "C10_pn_periodic",
    "C10_zero_seed",
    "C10_last_tap_needed_refuted"
   ],
   "note": "The last-tap hypothesis is needed: C10_last_tap_needed_refuted gives a mask without it that is not purely periodic."
  },
  {
   "property": "C11",
   "status": "proved",
   "theorems": [
    "C11_accepts",
    "C11_floats",
    "C11_cazac",
    "C11_cross_correlation",
    "C11_shift",
    "C11_exact_shift_refuted"
   ],
   "note": "The documentation's claim that q is an exact cyclic shift is false of the code; C11_exact_shift_refuted."
  },
  {
   "property": "C12",
   "status": "proved",
   "theorems": [
    "C12_interleave_roundtrip",
    "C12_deinterleave_roundtrip",
    "C12_positions_and_lengths"
   ],
   "note": ""
  },
  {
   "property": "C13",
   "status": "proved",
   "theorems": [
    "C13_polydivide",
    "C13_polydivide_unique",
    "C13_polydivide_hangs"
   ],
   "note": ""
  },
  {
   "property": "C14",
   "status": "proved",
   "theorems": [
    "C14_operations",
    "C14_field_laws",
    "C14_length_mismatch",
    "C14_constructor"
   ],
   "note": ""
  },
  {
   "property": "C15",
   "status": "proved",
   "theorems": [
    "C15_tuple_to_power",
    "C15_power_to_tuple",
    "C15_roundtrip",
    "C15_zero_roundtrip_refuted",
    "C15_roundtrip_m7_refuted",
    "C15_out_of_range_hangs"
   ],
   "note": "The identity round trip is false for m = 7 (int64 overflow of 2**63); C15_roundtrip_m7_refuted. It is proved for m <= 6 and for exponents below 63."
  },
  {
   "property": "C16",
   "status": "proved",
   "theorems": [
    "C16_order"
   ],
   "note": ""
  },
  {
   "property": "C17",
   "status": "proved",
   "theorems": [
    "C17_cosets"
   ],
   "note": ""
  },
  {
   "property": "C18",
   "status": "proved",
   "theorems": [
    "C18_minimal_polynomials"
   ],
   "note": ""
  },
  {
   "property": "C19",
   "status": "proved",
   "theorems": [
    "C19_generators_divide",
    "C19_generators_total",
    "C19_even_rejected",
    "C19_proper_divisor_refuted"
   ],
   "note": "False for odd n that is a proper divisor of 2**m-1; C19_proper_divisor_refuted. Proved for n = 2**m-1."
  },
  {
   "property": "C20",
   "status": "proved",
   "theorems": [
    "C20_poly_to_string"
   ],
   "note": ""
  },
  {
   "property": "C21",
   "status": "proved",
   "theorems": [
    "C21_trellis_tables",
    "C21_step_unique",
    "C21_memory_independent",
    "C21_memory_dependent_refuted"
   ],
   "note": "Tables depend on uninitialised memory when a row exceeds its own register; C21_memory_dependent_refuted shows two initial memories with different tables."
  },
  {
   "property": "C22",
   "status": "proved",
   "theorems": [
    "C22_incoming",
    "C22_singular_feedback_refuted"
   ],
   "note": "False for singular feedback; C22_singular_feedback_refuted."
  },
  {
   "property": "C23",
   "status": "proved",
   "theorems": [
    "C23_convolution"
   ],
   "note": ""
  },
  {
   "property": "C24",
   "status": "proved",
   "theorems": [
    "C24_linear"
   ],
   "note": ""
  },
  {
   "property": "C25",
   "status": "proved",
   "theorems": [
    "C25_terminates",
    "C25_condition",
    "C25_restart",
    "C25_unequal_memories_refuted"
   ],
   "note": "The tail does not always reach state 0; C25_unequal_memories_refuted (memory (3,1))."
  },
  {
   "property": "C26",
   "status": "proved",
   "theorems": [
    "C26_recursive_termination",
    "C26_tail",
    "C26_tail_several_lines",
    "C26_several_lines_refuted"
   ],
   "note": ""
  },
  {
   "property": "C27",
   "status": "proved",
   "theorems": [
    "C27_length",
    "C27_any_length",
    "C27_puncturing",
    "C27_rounding_refuted"
   ],
   "note": "Float rounding can make the output one bit too short; C27_rounding_refuted computes the binary64 quotient with the standard library's SpecFloat."
  },
  {
   "property": "C28",
   "status": "proved",
   "theorems": [
    "C28_legacy_tables",
    "C28_systematic",
    "C28_parity",
    "C28_parity_refuted"
   ],
   "note": "Parity claim false without a D^0 term; C28_parity_refuted."
  },
  {
   "property": "C29",
   "status": "proved",
   "theorems": [
    "C29_hard_window",
    "C29_hard_ties",
    "C29_hard_maximum_likelihood",
    "C29_unquantized_window",
    "C29_soft_window"
   ],
   "note": "Metrics are exact reals; ties follow numpy argmin. 'soft' uses the code's clip of the LLRs."
  },
  {
   "property": "C30",
   "status": "proved",
   "theorems": [
    "C30_hard_terminated",
    "C30_round_trip",
    "C30_cont_prefix",
    "C30_cont_refuted",
    "C30_unquantized_signs",
    "C30_soft_signs",
    "C30_soft_erasures"
   ],
   "note": "Unterminated hard decoding can lose the last bit; C30_cont_refuted."
  },
  {
   "property": "C31",
   "status": "proved",
   "theorems": [
    "C31_hard_overwrites",
    "C31_unquantized_overwrites",
    "C31_soft_untouched"
   ],
   "note": ""
  },
  {
   "property": "C32",
   "status": "proved",
   "theorems": [
    "C32_rate_1_n_default_depth",
    "C32_nothing_written",
    "C32_default_depth_refuted",
    "C32_depth_too_small",
    "C32_more_inputs_than_states"
   ],
   "note": "Default depth with k >= 2 can leave the output unwritten; C32_default_depth_refuted."
  },
  {
   "property": "C33",
   "status": "proved",
   "theorems": [
    "C33_unknown_type"
   ],
   "note": ""
  },
  {
   "property": "C34",
   "status": "proved",
   "theorems": [
    "C34_puncturing",
    "C34_depuncturing",
    "C34_depuncture_after_puncture",
    "C34_puncture_after_depuncture",
    "C34_empty_vector"
   ],
   "note": ""
  },
  {
   "property": "C35",
   "status": "proved",
   "theorems": [
    "C35_streams",
    "C35_memoryless_refuted",
    "C35_constructors",
    "C35_matrix_constructor"
   ],
   "note": "Memoryless trellises lose the message; C35_memoryless_refuted."
  },
  {
   "property": "C36",
   "status": "proved",
   "theorems": [
    "C36_posterior",
    "C36_corrects",
    "C36_prior_length",
    "C36_single_prior",
    "C36_turbo_noiseless",
    "C36_no_iteration"
   ],
   "note": "Exact real arithmetic; the sums over paths are those of the specification, not of the recursion."
  },
  {
   "property": "C37",
   "status": "proved",
   "theorems": [
    "C37_codewords",
    "C37_singular",
    "C37_odd_determinant_refuted"
   ],
   "note": "Odd determinants other than +-1 can yield non-codewords; C37_odd_determinant_refuted."
  },
  {
   "property": "C38",
   "status": "proved",
   "theorems": [
    "C38_round_trip",
    "C38_numbers",
    "C38_numbers_only",
    "C38_no_overwrite",
    "C38_zero_line"
   ],
   "note": ""
  },
  {
   "property": "C39",
   "status": "proved",
   "theorems": [
    "C39_codeword",
    "C39_stops_on_codewords",
    "C39_decisions",
    "C39_clips_in_place",
    "C39_errors",
    "C39_belief_propagation",
    "C39_tanh_rule",
    "C39_singular_code"
   ],
   "note": ""
  },
  {
   "property": "C40",
   "status": "proved",
   "theorems": [
    "C40_blocks_independent",
    "C40_shapes"
   ],
   "note": ""
  },
  {
   "property": "C41",
   "status": "proved",
   "theorems": [
    "C41_gray_labels",
    "C41_order_kept",
    "C41_bad_length",
    "C41_psk",
    "C41_qam",
    "C41_sizes"
   ],
   "note": ""
  },
  {
   "property": "C42",
   "status": "proved",
   "theorems": [
    "C42_modulate",
    "C42_round_trip",
    "C42_psk_qam",
    "C42_nearest",
    "C42_errors"
   ],
   "note": ""
  },
  {
   "property": "C43",
   "status": "proved",
   "theorems": [
    "C43_llr",
    "C43_two_points"
   ],
   "note": "Exact real arithmetic: binary64 under/overflow of exp is outside the model."
  },
  {
   "property": "C44",
   "status": "proved",
   "theorems": [
    "C44_energy",
    "C44_psk_qam"
   ],
   "note": ""
  },
  {
   "property": "C45",
   "status": "proved",
   "theorems": [
    "C45_ml",
    "C45_noiseless",
    "C45_errors"
   ],
   "note": ""
  },
  {
   "property": "C46",
   "status": "proved",
   "theorems": [
    "C46_full_width",
    "C46_noiseless",
    "C46_soft",
    "C46_errors"
   ],
   "note": ""
  },
  {
   "property": "C47",
   "status": "proved",
   "theorems": [
    "C47_equal_magnitudes",
    "C47_ml",
    "C47_magnitude",
    "C47_tall",
    "C47_max_log_refuted",
    "C47_demapper"
   ],
   "note": "The returned LLRs are not max-log LLRs; C47_max_log_refuted."
  },
  {
   "property": "C48",
   "status": "proved",
   "theorems": [
    "C48_bit_level",
    "C48_odd"
   ],
   "note": ""
  },
  {
   "property": "C49",
   "status": "proved",
   "theorems": [
    "C49_max_log",
    "C49_zero_noise",
    "C49_sign"
   ],
   "note": ""
  },
  {
   "property": "C50",
   "status": "proved",
   "theorems": [
    "C50_bec",
    "C50_bsc",
    "C50_certain",
    "C50_zero_refuted"
   ],
   "note": "p = 0 can still erase (draw exactly 0); C50_zero_refuted."
  },
  {
   "property": "C51",
   "status": "proved",
   "theorems": [
    "C51_history",
    "C51_failed_call",
    "C51_setter",
    "C51_constructor",
    "C51_documented_condition_refuted",
    "C51_k_factor",
    "C51_propagate",
    "C51_propagate_errors"
   ],
   "note": "The documented condition on |variance| is not the one checked; C51_documented_condition_refuted."
  },
  {
   "property": "C52",
   "status": "proved",
   "theorems": [
    "C52_history",
    "C52_rayleigh",
    "C52_rician",
    "C52_rejected",
    "C52_wrong_mean",
    "C52_constructor",
    "C52_failed_call_refuted",
    "C52_nan_mean",
    "C52_mean_gain"
   ],
   "note": "A failed Rician setter (negative beta) does change the channel; C52_failed_call_refuted."
  },
  {
   "property": "C53",
   "status": "proved",
   "theorems": [
    "C53_dB_lin",
    "C53_siso_noise",
    "C53_mimo_noise",
    "C53_noise_std",
    "C53_noise_std_mimo",
    "C53_type_change",
    "C53_awgn"
   ],
   "note": ""
  },
  {
   "property": "C54",
   "status": "proved",
   "theorems": [
    "C54_propagate",
    "C54_errors"
   ],
   "note": ""
  },
  {
   "property": "C55",
   "status": "proved",
   "theorems": [
    "C55_chunk_rounding",
    "C55_function",
    "C55_float_rate"
   ],
   "note": ""
  },
  {
   "property": "C56",
   "status": "proved",
   "theorems": [
    "C56_ber",
    "C56_ratio",
    "C56_terminates",
    "C56_no_transmission",
    "C56_transmission"
   ],
   "note": ""
  },
  {
   "property": "C57",
   "status": "proved",
   "theorems": [
    "C57_metrics",
    "C57_ratio",
    "C57_bit_error_ratio_refuted"
   ],
   "note": "The reported BER is not a bit error ratio with several chunks per send; C57_bit_error_ratio_refuted."
  },
  {
   "property": "C58",
   "status": "proved",
   "theorems": [
    "C58_idd",
    "C58_no_iteration"
   ],
   "note": ""
  },
  {
   "property": "C59",
   "status": "proved",
   "theorems": [
    "C59_generators",
    "C59_encoding",
    "C59_standard_refuted",
    "C59_catastrophic"
   ],
   "note": "The trellis is not the standard's; C59_standard_refuted."
  },
  {
   "property": "C60",
   "status": "proved",
   "theorems": [
    "C60_float_rate",
    "C60_lengths",
    "C60_depuncturing",
    "C60_noiseless",
    "C60_unknown_mcs",
    "C60_schemes",
    "C60_short_input"
   ],
   "note": ""
  },
  {
   "property": "C61",
   "status": "proved",
   "theorems": [
    "C61_times",
    "C61_raised_cosine",
    "C61_nyquist_samples",
    "C61_root_raised_cosine",
    "C61_gaussian"
   ],
   "note": ""
  },
  {
   "property": "C62",
   "status": "proved",
   "theorems": [
    "C62_offset",
    "C62_zero_rate"
   ],
   "note": ""
  },
  {
   "property": "C63",
   "status": "proved",
   "theorems": [
    "C63_ofdm"
   ],
   "note": "The rule for float indices is a parameter of the model (Strict / Truncating); C63 is the Strict case, C74 the other."
  },
  {
   "property": "C64",
   "status": "proved",
   "theorems": [
    "C64_valid_correlation",
    "C64_small_t_refuted",
    "C64_specular"
   ],
   "note": "Positive semidefiniteness fails for |t| < 1, which the code accepts; C64_small_t_refuted."
  },
  {
   "property": "C65",
   "status": "proved",
   "theorems": [
    "C65_symbol_corrected",
    "C65_corrects_errors",
    "C65_end_to_end",
    "C65_sparse_errors",
    "C65_code_5_7",
    "C65_terminated_distance_refuted",
    "C65_code_133_171"
   ],
   "note": ""
  },
  {
   "property": "C66",
   "status": "proved",
   "theorems": [
    "C66_exact_period",
    "C66_windows",
    "C66_balance",
    "C66_autocorrelation",
    "C66_any_seed"
   ],
   "note": ""
  },
  {
   "property": "C67",
   "status": "proved",
   "theorems": [
    "C67_sum_product",
    "C67_min_sum"
   ],
   "note": "Exact real arithmetic; the theorem bounds the sum of |LLR| by 500 so that no message is clipped."
  },
  {
   "property": "C68",
   "status": "proved",
   "theorems": [
    "C68_decision_regions",
    "C68_margin",
    "C68_psk",
    "C68_qam",
    "C68_max_log",
    "C68_soft_signs"
   ],
   "note": ""
  },
  {
   "property": "C69",
   "status": "proved",
   "theorems": [
    "C69_wifi_chain",
    "C69_wifi_link",
    "C69_hard",
    "C69_soft",
    "C69_ldpc",
    "C69_wifi_default_channel_refuted"
   ],
   "note": "With the default real channel the link raises TypeError; C69_wifi_default_channel_refuted."
  },
  {
   "property": "C70",
   "status": "proved",
   "theorems": [
    "C70_variance",
    "C70_llr"
   ],
   "note": ""
  },
  {
   "property": "C71",
   "status": "proved",
   "theorems": [
    "C71_codeword_symmetry",
    "C71_min_sum_scale"
   ],
   "note": ""
  },
  {
   "property": "C72",
   "status": "proved",
   "theorems": [
    "C72_errors",
    "C72_erasures",
    "C72_stopping_sets"
   ],
   "note": ""
  },
  {
   "property": "C73",
   "status": "proved",
   "theorems": [
    "C73_ml",
    "C73_any_width",
    "C73_soft",
    "C73_best_first",
    "C73_margins"
   ],
   "note": ""
  },
  {
   "property": "C74",
   "status": "proved",
   "theorems": [
    "C74_waveform",
    "C74_receiver",
    "C74_multipath",
    "C74_roundtrip",
    "C74_energy",
    "C74_zero_prefix_refuted",
    "C74_full_band_refuted",
    "C74_odd"
   ],
   "note": "Limits: cp_length = 0 and nsc = nfft do not invert, C74_zero_prefix_refuted and C74_full_band_refuted."
  },
  {
   "property": "C75",
   "status": "proved",
   "theorems": [
    "C75_long_register_rejected",
    "C75_empty_first_register",
    "C75_one_cell_no_feedback",
    "C75_first_register_refuted",
    "C75_feedback_refuted"
   ],
   "note": "The statement lists where the constructor is right and where not; the negative parts are C75_first_register_refuted and C75_feedback_refuted."
  },
  {
   "property": "C76",
   "status": "proved",
   "theorems": [
    "C76_any_detector",
    "C76_ml",
    "C76_kbest",
    "C76_siso",
    "C76_bpsk"
   ],
   "note": ""
  },
  {
   "property": "C77",
   "status": "proved",
   "theorems": [
    "C77_any_detector",
    "C77_best_first"
   ],
   "note": ""
  }
 ]
}