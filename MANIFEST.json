{
 "claims": [
  {
   "property": "C01",
   "status": "proved",
   "theorems": [
    "C01_read_bytes",
    "C01_streams_exist"
   ],
   "note": ""
  },
  {
   "property": "C02",
   "status": "proved",
   "theorems": [
    "C02_read_advance"
   ],
   "note": ""
  },
  {
   "property": "C03",
   "status": "proved",
   "theorems": [
    "C03_read_split",
    "C03_xoroshiro_split_differs"
   ],
   "note": ""
  },
  {
   "property": "C04",
   "status": "proved",
   "theorems": [
    "C04_rng_follows_generator",
    "C04_xoroshiro_skips"
   ],
   "note": ""
  },
  {
   "property": "C05",
   "status": "proved",
   "theorems": [
    "C05_seeding_erases_history"
   ],
   "note": ""
  },
  {
   "property": "C06",
   "status": "proved",
   "theorems": [
    "C06_save_restore"
   ],
   "note": ""
  },
  {
   "property": "C07",
   "status": "proved",
   "theorems": [
    "C07_short_read_untouched",
    "C07_mt64_ignores_count",
    "C07_mt64_short_read_corrupts"
   ],
   "note": ""
  },
  {
   "property": "C08",
   "status": "proved",
   "theorems": [
    "C08_full_read_with_error",
    "C08_mt64_fails_on_full_read_with_error"
   ],
   "note": ""
  },
  {
   "property": "C09",
   "status": "proved",
   "theorems": [
    "C09_objects_are_independent",
    "C09_copy_then_interleave"
   ],
   "note": ""
  },
  {
   "property": "C10",
   "status": "proved",
   "theorems": [
    "C10_xoroshiro_state_period",
    "C10_rexoroshiro_state_period",
    "C10_xoroshiro_stream_period",
    "C10_rexoroshiro_stream_period",
    "C10_zero_state_is_stuck",
    "C10_xoroshiro_visits_every_state"
   ],
   "note": ""
  },
  {
   "property": "C11",
   "status": "proved",
   "theorems": [
    "C11_xoshiro_state_period",
    "C11_xoshiro_stream_period",
    "C11_zero_state_is_stuck"
   ],
   "note": ""
  },
  {
   "property": "C12",
   "status": "proved",
   "theorems": [
    "C12_jump_is_2_192_steps"
   ],
   "note": ""
  },
  {
   "property": "C13",
   "status": "proved",
   "theorems": [
    "C13_jumped_streams_disjoint",
    "C13_last_stream_meets_first"
   ],
   "note": ""
  },
  {
   "property": "C14",
   "status": "proved",
   "theorems": [
    "C14_reverse_undoes_uint64",
    "C14_uint64_undoes_reverse"
   ],
   "note": ""
  },
  {
   "property": "C15",
   "status": "proved",
   "theorems": [
    "C15_every_4_tuple_has_one_state",
    "C15_zero_state_iff_zero_tuple",
    "C15_4_equidistributed",
    "C15_four_values_determine_the_stream"
   ],
   "note": ""
  },
  {
   "property": "C16",
   "status": "proved",
   "theorems": [
    "C16_outputs_are_tempered_recurrence",
    "C16_recurrence_determines_sequence"
   ],
   "note": ""
  },
  {
   "property": "C17",
   "status": "proved",
   "theorems": [
    "C17_temper_bijective",
    "C17_312_values_determine_the_stream",
    "C17_zeros_stay_zero",
    "C17_readme_623_tuples_false",
    "C17_every_312_tuple_occurs"
   ],
   "note": ""
  },
  {
   "property": "C18",
   "status": "proved",
   "theorems": [
    "C18_real_recurrence",
    "C18_335_values_determine_the_stream",
    "C18_documented_recurrence_false"
   ],
   "note": ""
  },
  {
   "property": "C19",
   "status": "proved",
   "theorems": [
    "C19_seediv_ignores_positions",
    "C19_seed_uses_only_8_bits",
    "C19_seed_gives_at_most_256_generators"
   ],
   "note": ""
  },
  {
   "property": "C20",
   "status": "proved",
   "theorems": [
    "C20_never_panics",
    "C20_zero_value_seeded",
    "C20_zero_value_panics_on_call_608"
   ],
   "note": ""
  },
  {
   "property": "C21",
   "status": "proved",
   "theorems": [
    "C21_never_panics"
   ],
   "note": ""
  },
  {
   "property": "C22",
   "status": "proved",
   "theorems": [
    "C22_mt64_seed_never_dead",
    "C22_seed_gives_full_period_xoroshiro",
    "C22_seed_gives_full_period_xoshiro",
    "C22_iv_that_kills_xoroshiro",
    "C22_iv_that_kills_xoshiro"
   ],
   "note": ""
  },
  {
   "property": "C23",
   "status": "proved",
   "theorems": [
    "C23_mt64_seed_injective",
    "C23_xoroshiro_16_byte_ivs_injective",
    "C23_xoroshiro_16_byte_ivs_onto",
    "C23_xoshiro_32_byte_ivs_injective",
    "C23_xoshiro_32_byte_ivs_onto",
    "C23_xoroshiro_seed_injective",
    "C23_rexoroshiro_seed_injective",
    "C23_xoshiro_seed_injective"
   ],
   "note": ""
  },
  {
   "property": "C24",
   "status": "proved",
   "theorems": [
    "C24_xoroshiro_seediv",
    "C24_earlier_words_in_any_order",
    "C24_trailing_zero_bytes"
   ],
   "note": ""
  },
  {
   "property": "C25",
   "status": "proved",
   "theorems": [
    "C25_uint64_decodes",
    "C25_uint32_decodes",
    "C25_uint16_decodes",
    "C25_short_read_is_silent",
    "C25_uint64_uniform",
    "C25_uint32_uniform",
    "C25_uint16_uniform"
   ],
   "note": ""
  },
  {
   "property": "C26",
   "status": "proved",
   "theorems": [
    "C26_uintn_is_first_accepted_draw",
    "C26_uintn_in_range",
    "C26_uintn_panics_iff",
    "C26_uintn_not_finished_iff",
    "C26_intn_is_first_accepted_draw",
    "C26_intn_in_range",
    "C26_intn_panics_iff",
    "C26_uintn_can_run_forever"
   ],
   "note": ""
  },
  {
   "property": "C27",
   "status": "proved",
   "theorems": [
    "C27_uintn_preimages",
    "C27_uintn_not_uniform",
    "C27_exact_bound_would_be_uniform"
   ],
   "note": ""
  },
  {
   "property": "C28",
   "status": "proved",
   "theorems": [
    "C28_big_value",
    "C28_big_range",
    "C28_big_panics",
    "C28_big_uniform",
    "C28_big_lost_byte"
   ],
   "note": ""
  },
  {
   "property": "C29",
   "status": "proved",
   "theorems": [
    "C29_bign_is_first_accepted_draw",
    "C29_bign_in_range",
    "C29_bign_panics_iff",
    "C29_bitlen_7_mod_8",
    "C29_bign_100_is_always_0",
    "C29_bign_preimages"
   ],
   "note": ""
  },
  {
   "property": "C30",
   "status": "proved",
   "theorems": [
    "C30_uniform1_2_value",
    "C30_uniform1_2_range",
    "C30_uniform1_2_uniform"
   ],
   "note": ""
  },
  {
   "property": "C31",
   "status": "proved",
   "theorems": [
    "C31_scale_literal",
    "C31_uniform0_1_value",
    "C31_uniform0_1_range",
    "C31_uniform0_1_uniform"
   ],
   "note": ""
  },
  {
   "property": "C32",
   "status": "proved",
   "theorems": [
    "C32_uniform_value",
    "C32_uniform_above_low",
    "C32_uniform_negative_high",
    "C32_uniform_below_sum",
    "C32_uniform_exceeds_high",
    "C32_uniform_minus1_1",
    "C32_uniform_low_zero"
   ],
   "note": ""
  },
  {
   "property": "C33",
   "status": "proved",
   "theorems": [
    "C33_mirrored_draw_unique",
    "C33_unmirrored_draws",
    "C33_gennext_is_ziggurat",
    "C33_no_panic",
    "C33_abscissa_exact"
   ],
   "note": ""
  },
  {
   "property": "C34",
   "status": "proved",
   "theorems": [
    "C34_normal_pdf_even",
    "C34_normal_symmetric",
    "C34_mirror_attempt",
    "C34_mirrored_symmetric"
   ],
   "note": ""
  },
  {
   "property": "C35",
   "status": "proved",
   "theorems": [
    "C35_expo_literals",
    "C35_normal_literals",
    "C35_expo_tables",
    "C35_normal_tables",
    "C35_expo_base",
    "C35_normal_base",
    "C35_expo_tail_start",
    "C35_normal_tail_start",
    "C35_expo_K_errors",
    "C35_normal_K_errors",
    "C35_expo_areas",
    "C35_normal_areas"
   ],
   "note": ""
  },
  {
   "property": "C36",
   "status": "proved",
   "theorems": [
    "C36_exponential_nonneg",
    "C36_exponential_finite_without_zero",
    "C36_exponential_can_be_infinite"
   ],
   "note": ""
  },
  {
   "property": "C37",
   "status": "proved",
   "theorems": [
    "C37_tail_beyond_R",
    "C37_tail_finite_without_zero",
    "C37_tail_zero_attempt",
    "C37_normal_can_be_infinite"
   ],
   "note": ""
  },
  {
   "property": "C38",
   "status": "proved",
   "theorems": [
    "C38_xor_bytes",
    "C38_never_fails_by_itself",
    "C38_one_uniform_source_suffices"
   ],
   "note": ""
  },
  {
   "property": "C39",
   "status": "proved",
   "theorems": [
    "C39_select_bits",
    "C39_never_fails_by_itself",
    "C39_uniform_for_every_selector"
   ],
   "note": ""
  },
  {
   "property": "C40",
   "status": "proved",
   "theorems": [
    "C40_source64_bytes",
    "C40_rng_follows_source"
   ],
   "note": ""
  },
  {
   "property": "C41",
   "status": "proved",
   "theorems": [
    "C41_source_bytes",
    "C41_top_bit_always_0",
    "C41_rng_uint64_is_int63",
    "C41_two_calls_uniform",
    "C41_incomplete_last_group_uniform"
   ],
   "note": ""
  },
  {
   "property": "C42",
   "status": "proved",
   "theorems": [
    "C42_adapter_seediv",
    "C42_later_bytes_ignored",
    "C42_seedint64",
    "C42_seed_through_both",
    "C42_seediv_through_both",
    "C42_cryptoseeded",
    "C42_cryptoseeded_panics"
   ],
   "note": ""
  },
  {
   "property": "C43",
   "status": "proved",
   "theorems": [
    "C43_wrapped_uint64",
    "C43_wrapped_int63",
    "C43_wrapped_seed",
    "C43_adaptrand_type",
    "C43_adaptcrazy_type",
    "C43_adaptrand64_type",
    "C43_adaptrand_identity",
    "C43_adaptcrazy_identity",
    "C43_adaptrand_choice",
    "C43_no_stacking",
    "C43_builtin_generators",
    "C43_xoshiro_wrapped"
   ],
   "note": ""
  },
  {
   "property": "C44",
   "status": "proved",
   "theorems": [
    "C44_randstring",
    "C44_length_and_alphabet",
    "C44_randstring_returns",
    "C44_panics_iff",
    "C44_ascii_length"
   ],
   "note": ""
  },
  {
   "property": "C45",
   "status": "proved",
   "theorems": [
    "C45_shuffle_calls",
    "C45_slices_as_shuffle",
    "C45_permutes",
    "C45_never_panics",
    "C45_every_order_possible"
   ],
   "note": ""
  },
  {
   "property": "C46",
   "status": "proved",
   "theorems": [
    "C46_not_uniform",
    "C46_uniform_up_to_two"
   ],
   "note": ""
  },
  {
   "property": "C47",
   "status": "proved",
   "theorems": [
    "C47_stream",
    "C47_no_panic",
    "C47_no_panic_in_good_use",
    "C47_bounded_lookahead",
    "C47_ends_only_by_quit",
    "C47_nil_quit_never_ends",
    "C47_one_signal_stops_one_yielder",
    "C47_silent_after_end",
    "C47_progress",
    "C47_stops_if_left_alone",
    "C47_may_continue_after_close",
    "C47_uint64_is_yield",
    "C47_uint64_generator_stream"
   ],
   "note": ""
  },
  {
   "property": "C48",
   "status": "proved",
   "theorems": [
    "C48_rexoroshiro_bytes_reversed",
    "C48_rexoroshiro_same_state"
   ],
   "note": ""
  },
  {
   "property": "C49",
   "status": "proved",
   "theorems": [
    "C49_int63",
    "C49_int63_total"
   ],
   "note": ""
  },
  {
   "property": "C50",
   "status": "proved",
   "theorems": [
    "C50_seed_is_init_genrand64",
    "C50_init_genrand64_unique",
    "C50_empty_iv_is_default_seed",
    "C50_seediv_is_not_init_by_array64"
   ],
   "note": ""
  },
  {
   "property": "C51",
   "status": "proved",
   "theorems": [
    "C51_actual_period",
    "C51_documented_period_is_not_a_period"
   ],
   "note": ""
  },
  {
   "property": "C52",
   "status": "proved",
   "theorems": [
    "C52_xoshiro_seediv",
    "C52_trailing_zero_bytes"
   ],
   "note": ""
  },
  {
   "property": "C53",
   "status": "proved",
   "theorems": [
    "C53_xoshiro_is_xoshiro256ss",
    "C53_xoroshiro_is_xoroshiro128p",
    "C53_mt64_format"
   ],
   "note": ""
  },
  {
   "property": "C54",
   "status": "proved",
   "theorems": [
    "C54_lfg_seediv",
    "C54_recurrence_determines_sequence",
    "C54_table_is_a_run_of_the_generator"
   ],
   "note": ""
  },
  {
   "property": "C55",
   "status": "proved",
   "theorems": [
    "C55_save_begins_with_last_335_values",
    "C55_save_layout",
    "C55_restore_ignores_the_other_words",
    "C55_every_335_values_occur"
   ],
   "note": ""
  },
  {
   "property": "C56",
   "status": "proved",
   "theorems": [
    "C56_mt64_seediv",
    "C56_sequence_unique",
    "C56_window_determines_stream",
    "C56_first_312_values_determine_short_iv",
    "C56_short_iv_injective",
    "C56_zero_padding_ignored"
   ],
   "note": ""
  },
  {
   "property": "C57",
   "status": "proved",
   "theorems": [
    "C57_mt64_seed_stream_injective",
    "C57_xoroshiro_128_low_bits_determine_state",
    "C57_xoroshiro_128_values_determine_state",
    "C57_rexoroshiro_128_values_determine_state",
    "C57_xoshiro_4_values_determine_state",
    "C57_xoroshiro_seed_stream_injective",
    "C57_rexoroshiro_seed_stream_injective",
    "C57_xoshiro_seed_stream_injective",
    "C57_lfg_seed_stream_injective"
   ],
   "note": ""
  },
  {
   "property": "C58",
   "status": "proved",
   "theorems": [
    "C58_table_is_the_state_after_2_34_calls",
    "C58_such_a_run_exists"
   ],
   "note": ""
  },
  {
   "property": "C59",
   "status": "proved",
   "theorems": [
    "C59_expo_tail",
    "C59_normal_tail",
    "C59_exponential_rate",
    "C59_exponential_value",
    "C59_normal_mean_stddev",
    "C59_normal_value"
   ],
   "note": ""
  },
  {
   "property": "C60",
   "status": "proved",
   "theorems": [
    "C60_expo_heights",
    "C60_normal_heights",
    "C60_top_height",
    "C60_expo_base",
    "C60_normal_base"
   ],
   "note": ""
  },
  {
   "property": "C61",
   "status": "proved",
   "theorems": [
    "C61_exponential_distribution",
    "C61_exponential_returns"
   ],
   "note": ""
  },
  {
   "property": "C62",
   "status": "proved",
   "theorems": [
    "C62_bell_curve",
    "C62_normal_distribution",
    "C62_normal_distribution_tight",
    "C62_standard_normal",
    "C62_normal_returns"
   ],
   "note": ""
  },
  {
   "property": "C63",
   "status": "proved",
   "theorems": [
    "C63_xoroshiro_is_fair",
    "C63_rexoroshiro_is_fair",
    "C63_xoroshiro_values",
    "C63_rexoroshiro_values",
    "C63_xoroshiro_missing_pair",
    "C63_rexoroshiro_missing_pair",
    "C63_xoroshiro_repeated_pair",
    "C63_xoshiro_tuples"
   ],
   "note": ""
  },
  {
   "property": "C64",
   "status": "proved",
   "theorems": [
    "C64_low_bits_follow_a_recurrence",
    "C64_no_shorter_recurrence",
    "C64_low_bits_reveal_the_state",
    "C64_rexoroshiro_bit_56"
   ],
   "note": ""
  },
  {
   "property": "C65",
   "status": "proved",
   "theorems": [
    "C65_uintn_distribution",
    "C65_intn_distribution",
    "C65_nearly_uniform",
    "C65_uintn_returns"
   ],
   "note": ""
  },
  {
   "property": "C66",
   "status": "proved",
   "theorems": [
    "C66_randstring_distribution",
    "C66_letters_nearly_uniform"
   ],
   "note": ""
  },
  {
   "property": "C67",
   "status": "proved",
   "theorems": [
    "C67_shuffle_distribution",
    "C67_shuffle_counts",
    "C67_never_uniform",
    "C67_three_biased"
   ],
   "note": ""
  },
  {
   "property": "C68",
   "status": "proved",
   "theorems": [
    "C68_ziggurat_law",
    "C68_mirrored_law",
    "C68_before_the_tail"
   ],
   "note": ""
  },
  {
   "property": "C69",
   "status": "proved",
   "theorems": [
    "C69_rng",
    "C69_randstring",
    "C69_shuffles",
    "C69_ziggurat",
    "C69_distributions",
    "C69_nothing_else",
    "C69_ziggurat_nothing_else",
    "C69_generators"
   ],
   "note": ""
  },
  {
   "property": "C70",
   "status": "proved",
   "theorems": [
    "C70_mt64_uintn",
    "C70_xoshiro_uintn",
    "C70_mt64_randstring",
    "C70_mt64_shuffle",
    "C70_mt64_exponential",
    "C70_mt64_normal"
   ],
   "note": ""
  },
  {
   "property": "C71",
   "status": "proved",
   "theorems": [
    "C71_clients",
    "C71_shuffles",
    "C71_ziggurat",
    "C71_equal_sources",
    "C71_restored"
   ],
   "note": ""
  },
  {
   "property": "C72",
   "status": "proved",
   "theorems": [
    "C72_pair",
    "C72_successive",
    "C72_uintn_sample",
    "C72_exponential_sample",
    "C72_normal_sample"
   ],
   "note": ""
  },
  {
   "property": "C73",
   "status": "proved",
   "theorems": [
    "C73_uniform0_1",
    "C73_uniform1_2",
    "C73_uniform",
    "C73_uniform0_1_sample",
    "C73_uniform_sample"
   ],
   "note": ""
  },
  {
   "property": "C74",
   "status": "proved",
   "theorems": [
    "C74_big_uniform",
    "C74_big_lost_byte",
    "C74_bign_distribution",
    "C74_bign_lost_byte"
   ],
   "note": ""
  },
  {
   "property": "C75",
   "status": "proved",
   "theorems": [
    "C75_xor",
    "C75_xor_swapped",
    "C75_select",
    "C75_generators",
    "C75_xor_uintn",
    "C75_xor_exponential",
    "C75_xor_normal",
    "C75_select_uintn"
   ],
   "note": ""
  },
  {
   "property": "C76",
   "status": "proved",
   "theorems": [
    "C76_serial",
    "C76_serial_no_panic",
    "C76_own_generator",
    "C76_same_value_twice",
    "C76_lfg_and_mt64_can_panic",
    "C76_xoroshiro_and_xoshiro_never_panic",
    "C76_racing_calls_can_zero_the_state",
    "C76_zero_state_stays"
   ],
   "note": ""
  },
  {
   "property": "C77",
   "status": "proved",
   "theorems": [
    "C77_exponential",
    "C77_exponential_sample",
    "C77_standard_normal",
    "C77_standard_normal_sample",
    "C77_normal_sample",
    "C77_exponential_machines",
    "C77_exponential_machines_sample",
    "C77_normal_machines",
    "C77_normal_machines_sample",
    "C77_normal_rounding",
    "C77_uniform",
    "C77_uniform_from_zero",
    "C77_uniform_can_differ"
   ],
   "note": ""
  },
  {
   "property": "C78",
   "status": "proved",
   "theorems": [
    "C78_ziggurat_exists",
    "C78_ziggurat_unique",
    "C78_mini_defined",
    "C78_mini_function",
    "C78_sign",
    "C78_sign_tolerance",
    "C78_solve",
    "C78_solve_tolerance",
    "C78_no_single_layer",
    "C78_layers_cover",
    "C78_guess",
    "C78_exact_body",
    "C78_exact_tail",
    "C78_exact_law",
    "C78_tables",
    "C78_bits",
    "C78_bits_1024",
    "C78_symmetric",
    "C78_printed_K",
    "C78_printed_float"
   ],
   "note": ""
  },
  {
   "property": "C79",
   "status": "proved",
   "theorems": [
    "C79_expo",
    "C79_normal"
   ],
   "note": ""
  },
  {
   "property": "C80",
   "status": "proved",
   "theorems": [
    "C80_tables_fit",
    "C80_law",
    "C80_right_tail",
    "C80_mirrored_law",
    "C80_tables_exist"
   ],
   "note": ""
  },
  {
   "property": "C81",
   "status": "proved",
   "theorems": [
    "C81_blocks_repeat",
    "C81_least_repetition",
    "C81_rng_methods_repeat",
    "C81_rng_xoroshiro_values"
   ],
   "note": ""
  },
  {
   "property": "C82",
   "status": "proved",
   "theorems": [
    "C82_period",
    "C82_almost_always_exact",
    "C82_short_iv_exact",
    "C82_seed_exact",
    "C82_size"
   ],
   "note": ""
  },
  {
   "property": "C83",
   "status": "proved",
   "theorems": [
    "C83_six_cycle",
    "C83_short_period",
    "C83_iv_that_kills_lfg"
   ],
   "note": ""
  },
  {
   "property": "C84",
   "status": "proved",
   "theorems": [
    "C84_every_335_values_once",
    "C84_restored",
    "C84_lfg_uintn",
    "C84_lfg_randstring",
    "C84_lfg_shuffle",
    "C84_lfg_exponential",
    "C84_lfg_normal"
   ],
   "note": ""
  },
  {
   "property": "C85",
   "status": "proved",
   "theorems": [
    "C85_low_bits_repeat",
    "C85_short_iv",
    "C85_seed",
    "C85_almost_always",
    "C85_blocks_as_values",
    "C85_sizes"
   ],
   "note": ""
  },
  {
   "property": "C86",
   "status": "proved",
   "theorems": [
    "C86_uniform_repeats",
    "C86_uniform0_1_values",
    "C86_uniform1_2_values",
    "C86_lfg_short_iv",
    "C86_lfg_seed",
    "C86_int63_repeats",
    "C86_int63_values"
   ],
   "note": ""
  },
  {
   "property": "C87",
   "status": "proved",
   "theorems": [
    "C87_words_used",
    "C87_uintn",
    "C87_exponential",
    "C87_normal",
    "C87_costs_add",
    "C87_many_draws",
    "C87_shuffle",
    "C87_randstring"
   ],
   "note": ""
  },
  {
   "property": "C88",
   "status": "proved",
   "theorems": [
    "C88_exponential_mean",
    "C88_exponential_mean_rate",
    "C88_normal_mean",
    "C88_normal_mean_sd",
    "C88_mean_unique",
    "C88_uniform0_1_mean",
    "C88_uniform1_2_mean",
    "C88_uintn_mean",
    "C88_uintn_mean_near",
    "C88_uniform_mean"
   ],
   "note": ""
  },
  {
   "property": "C89",
   "status": "proved",
   "theorems": [
    "C89_binomial",
    "C89_frequency",
    "C89_uintn",
    "C89_exponential",
    "C89_normal"
   ],
   "note": ""
  },
  {
   "property": "C90",
   "status": "proved",
   "theorems": [
    "C90_exponential_square",
    "C90_exponential_variance",
    "C90_normal_square",
    "C90_normal_variance",
    "C90_uniform0_1_variance",
    "C90_uintn_square",
    "C90_uintn_variance"
   ],
   "note": ""
  }
 ]
}