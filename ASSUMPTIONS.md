# What `Print Assumptions` lists

Generated by tools/assumptions.py from the built library.

## Closed under the global context (no axioms)

245 theorems: C01_read_bytes, C01_streams_exist, C02_read_advance, C03_read_split, C03_xoroshiro_split_differs, C04_rng_follows_generator, C04_xoroshiro_skips, C05_seeding_erases_history, C06_save_restore, C07_mt64_ignores_count, C07_mt64_short_read_corrupts, C07_short_read_untouched, C08_full_read_with_error, C08_mt64_fails_on_full_read_with_error, C09_copy_then_interleave, C09_objects_are_independent, C10_rexoroshiro_state_period, C10_rexoroshiro_stream_period, C10_xoroshiro_state_period, C10_xoroshiro_stream_period, C10_xoroshiro_visits_every_state, C10_zero_state_is_stuck, C11_xoshiro_state_period, C11_xoshiro_stream_period, C11_zero_state_is_stuck, C12_jump_is_2_192_steps, C13_jumped_streams_disjoint, C13_last_stream_meets_first, C14_reverse_undoes_uint64, C14_uint64_undoes_reverse, C15_4_equidistributed, C15_every_4_tuple_has_one_state, C15_four_values_determine_the_stream, C15_zero_state_iff_zero_tuple, C16_outputs_are_tempered_recurrence, C16_recurrence_determines_sequence, C17_312_values_determine_the_stream, C17_every_312_tuple_occurs, C17_readme_623_tuples_false, C17_temper_bijective, C17_zeros_stay_zero, C18_335_values_determine_the_stream, C18_documented_recurrence_false, C18_real_recurrence, C19_seed_gives_at_most_256_generators, C19_seed_uses_only_8_bits, C19_seediv_ignores_positions, C20_never_panics, C20_zero_value_panics_on_call_608, C20_zero_value_seeded, C21_never_panics, C22_iv_that_kills_xoroshiro, C22_iv_that_kills_xoshiro, C22_mt64_seed_never_dead, C22_seed_gives_full_period_xoroshiro, C22_seed_gives_full_period_xoshiro, C23_mt64_seed_injective, C23_rexoroshiro_seed_injective, C23_xoroshiro_16_byte_ivs_injective, C23_xoroshiro_16_byte_ivs_onto, C23_xoroshiro_seed_injective, C23_xoshiro_32_byte_ivs_injective, C23_xoshiro_32_byte_ivs_onto, C23_xoshiro_seed_injective, C24_earlier_words_in_any_order, C24_trailing_zero_bytes, C24_xoroshiro_seediv, C25_short_read_is_silent, C25_uint16_decodes, C25_uint16_uniform, C25_uint32_decodes, C25_uint32_uniform, C25_uint64_decodes, C25_uint64_uniform, C26_intn_in_range, C26_intn_is_first_accepted_draw, C26_intn_panics_iff, C26_uintn_can_run_forever, C26_uintn_in_range, C26_uintn_is_first_accepted_draw, C26_uintn_not_finished_iff, C26_uintn_panics_iff, C27_exact_bound_would_be_uniform, C27_uintn_not_uniform, C27_uintn_preimages, C28_big_lost_byte, C28_big_panics, C28_big_range, C28_big_uniform, C28_big_value, C29_bign_100_is_always_0, C29_bign_in_range, C29_bign_is_first_accepted_draw, C29_bign_panics_iff, C29_bign_preimages, C29_bitlen_7_mod_8, C33_mirrored_draw_unique, C33_unmirrored_draws, C38_never_fails_by_itself, C38_one_uniform_source_suffices, C38_xor_bytes, C39_never_fails_by_itself, C39_select_bits, C39_uniform_for_every_selector, C40_rng_follows_source, C40_source64_bytes, C41_incomplete_last_group_uniform, C41_rng_uint64_is_int63, C41_source_bytes, C41_top_bit_always_0, C41_two_calls_uniform, C42_adapter_seediv, C42_cryptoseeded, C42_cryptoseeded_panics, C42_later_bytes_ignored, C42_seed_through_both, C42_seedint64, C42_seediv_through_both, C43_adaptcrazy_identity, C43_adaptcrazy_type, C43_adaptrand64_type, C43_adaptrand_choice, C43_adaptrand_identity, C43_adaptrand_type, C43_builtin_generators, C43_no_stacking, C43_wrapped_int63, C43_wrapped_seed, C43_wrapped_uint64, C43_xoshiro_wrapped, C44_ascii_length, C44_length_and_alphabet, C44_panics_iff, C44_randstring, C44_randstring_returns, C45_every_order_possible, C45_never_panics, C45_permutes, C45_shuffle_calls, C45_slices_as_shuffle, C46_not_uniform, C46_uniform_up_to_two, C47_bounded_lookahead, C47_ends_only_by_quit, C47_may_continue_after_close, C47_nil_quit_never_ends, C47_no_panic, C47_no_panic_in_good_use, C47_one_signal_stops_one_yielder, C47_progress, C47_silent_after_end, C47_stops_if_left_alone, C47_stream, C47_uint64_generator_stream, C47_uint64_is_yield, C48_rexoroshiro_bytes_reversed, C48_rexoroshiro_same_state, C49_int63, C49_int63_total, C50_empty_iv_is_default_seed, C50_init_genrand64_unique, C50_seed_is_init_genrand64, C50_seediv_is_not_init_by_array64, C51_actual_period, C51_documented_period_is_not_a_period, C52_trailing_zero_bytes, C52_xoshiro_seediv, C53_mt64_format, C53_xoroshiro_is_xoroshiro128p, C53_xoshiro_is_xoshiro256ss, C54_lfg_seediv, C54_recurrence_determines_sequence, C54_table_is_a_run_of_the_generator, C55_every_335_values_occur, C55_restore_ignores_the_other_words, C55_save_begins_with_last_335_values, C55_save_layout, C56_first_312_values_determine_short_iv, C56_mt64_seediv, C56_sequence_unique, C56_short_iv_injective, C56_window_determines_stream, C56_zero_padding_ignored, C57_lfg_seed_stream_injective, C57_mt64_seed_stream_injective, C57_rexoroshiro_128_values_determine_state, C57_rexoroshiro_seed_stream_injective, C57_xoroshiro_128_low_bits_determine_state, C57_xoroshiro_128_values_determine_state, C57_xoroshiro_seed_stream_injective, C57_xoshiro_4_values_determine_state, C57_xoshiro_seed_stream_injective, C58_such_a_run_exists, C63_rexoroshiro_is_fair, C63_rexoroshiro_missing_pair, C63_rexoroshiro_values, C63_xoroshiro_is_fair, C63_xoroshiro_missing_pair, C63_xoroshiro_repeated_pair, C63_xoroshiro_values, C63_xoshiro_tuples, C64_low_bits_follow_a_recurrence, C64_low_bits_reveal_the_state, C64_no_shorter_recurrence, C64_rexoroshiro_bit_56, C69_generators, C69_randstring, C69_rng, C69_shuffles, C71_equal_sources, C71_restored, C71_shuffles, C75_generators, C76_lfg_and_mt64_can_panic, C76_own_generator, C76_racing_calls_can_zero_the_state, C76_same_value_twice, C76_serial, C76_serial_no_panic, C76_xoroshiro_and_xoshiro_never_panic, C76_zero_state_stays, C78_printed_K, C78_symmetric, C81_blocks_repeat, C81_least_repetition, C81_rng_methods_repeat, C81_rng_xoroshiro_values, C82_almost_always_exact, C82_period, C82_seed_exact, C82_short_iv_exact, C82_size, C83_iv_that_kills_lfg, C83_short_period, C83_six_cycle, C84_every_335_values_once, C84_restored, C85_almost_always, C85_blocks_as_values, C85_low_bits_repeat, C85_seed, C85_short_iv, C85_sizes, C86_int63_repeats, C86_int63_values

## `ClassicalDedekindReals.sig_forall_dec`, `FunctionalExtensionality.functional_extensionality_dep`

21 theorems: C65_intn_distribution, C65_nearly_uniform, C65_uintn_distribution, C65_uintn_returns, C66_letters_nearly_uniform, C66_randstring_distribution, C67_shuffle_counts, C67_shuffle_distribution, C67_three_biased, C74_big_lost_byte, C74_big_uniform, C74_bign_distribution, C74_bign_lost_byte, C75_select, C75_select_uintn, C75_xor, C75_xor_swapped, C75_xor_uintn, C78_bits, C78_bits_1024, C87_uintn

## `ClassicalDedekindReals.sig_forall_dec`, `ClassicalDedekindReals.sig_not_dec`, `FunctionalExtensionality.functional_extensionality_dep`

16 theorems: C67_never_uniform, C78_exact_body, C78_exact_law, C78_exact_tail, C78_guess, C78_layers_cover, C78_mini_defined, C78_mini_function, C78_no_single_layer, C78_sign, C78_sign_tolerance, C78_solve, C78_solve_tolerance, C78_tables, C78_ziggurat_exists, C78_ziggurat_unique

## `ClassicalDedekindReals.sig_forall_dec`, `ClassicalDedekindReals.sig_not_dec`, `Classical_Prop.classic`, `FunctionalExtensionality.functional_extensionality_dep`

145 theorems: C30_uniform1_2_range, C30_uniform1_2_uniform, C30_uniform1_2_value, C31_scale_literal, C31_uniform0_1_range, C31_uniform0_1_uniform, C31_uniform0_1_value, C32_uniform_above_low, C32_uniform_below_sum, C32_uniform_exceeds_high, C32_uniform_low_zero, C32_uniform_minus1_1, C32_uniform_negative_high, C32_uniform_value, C33_abscissa_exact, C33_gennext_is_ziggurat, C33_no_panic, C34_mirror_attempt, C34_mirrored_symmetric, C34_normal_pdf_even, C34_normal_symmetric, C35_expo_K_errors, C35_expo_areas, C35_expo_base, C35_expo_literals, C35_expo_tables, C35_expo_tail_start, C35_normal_K_errors, C35_normal_areas, C35_normal_base, C35_normal_literals, C35_normal_tables, C35_normal_tail_start, C36_exponential_can_be_infinite, C36_exponential_finite_without_zero, C36_exponential_nonneg, C37_normal_can_be_infinite, C37_tail_beyond_R, C37_tail_finite_without_zero, C37_tail_zero_attempt, C59_expo_tail, C59_exponential_rate, C59_exponential_value, C59_normal_mean_stddev, C59_normal_tail, C59_normal_value, C60_expo_base, C60_expo_heights, C60_normal_base, C60_normal_heights, C60_top_height, C61_exponential_distribution, C61_exponential_returns, C62_bell_curve, C62_normal_distribution, C62_normal_distribution_tight, C62_normal_returns, C62_standard_normal, C68_before_the_tail, C68_mirrored_law, C68_ziggurat_law, C69_distributions, C69_nothing_else, C69_ziggurat, C69_ziggurat_nothing_else, C70_mt64_exponential, C70_mt64_normal, C70_mt64_randstring, C70_mt64_shuffle, C70_mt64_uintn, C70_xoshiro_uintn, C71_clients, C71_ziggurat, C72_exponential_sample, C72_normal_sample, C72_pair, C72_successive, C72_uintn_sample, C73_uniform, C73_uniform0_1, C73_uniform0_1_sample, C73_uniform1_2, C73_uniform_sample, C75_xor_exponential, C75_xor_normal, C77_exponential, C77_exponential_machines, C77_exponential_machines_sample, C77_exponential_sample, C77_normal_machines, C77_normal_machines_sample, C77_normal_rounding, C77_normal_sample, C77_standard_normal, C77_standard_normal_sample, C77_uniform, C77_uniform_can_differ, C77_uniform_from_zero, C78_printed_float, C79_expo, C79_normal, C80_law, C80_mirrored_law, C80_right_tail, C80_tables_exist, C80_tables_fit, C84_lfg_exponential, C84_lfg_normal, C84_lfg_randstring, C84_lfg_shuffle, C84_lfg_uintn, C86_lfg_seed, C86_lfg_short_iv, C86_uniform0_1_values, C86_uniform1_2_values, C86_uniform_repeats, C87_costs_add, C87_exponential, C87_many_draws, C87_normal, C87_randstring, C87_shuffle, C87_words_used, C88_exponential_mean, C88_exponential_mean_rate, C88_mean_unique, C88_normal_mean, C88_normal_mean_sd, C88_uintn_mean, C88_uintn_mean_near, C88_uniform0_1_mean, C88_uniform1_2_mean, C88_uniform_mean, C89_binomial, C89_exponential, C89_frequency, C89_normal, C89_uintn, C90_exponential_square, C90_exponential_variance, C90_normal_square, C90_normal_variance, C90_uintn_square, C90_uintn_variance, C90_uniform0_1_variance

## `PrimInt63.add`, `PrimInt63.div`, `PrimInt63.eqb`, `PrimInt63.int`, `PrimInt63.land`, `PrimInt63.leb`, `PrimInt63.lor`, `PrimInt63.lsl`, `PrimInt63.lsr`, `PrimInt63.ltb`, `PrimInt63.mod`, `PrimInt63.mul`, `PrimInt63.sub`, `Uint63.add_spec`, `Uint63.div_spec`, `Uint63.eqb_correct`, `Uint63.eqb_refl`, `Uint63.leb_spec`, `Uint63.lor_spec`, `Uint63.lsl_spec`, `Uint63.lsr_spec`, `Uint63.ltb_spec`, `Uint63.mod_spec`, `Uint63.mul_spec`, `Uint63.of_to_Z`, `Uint63.sub_spec`

1 theorems: C58_table_is_the_state_after_2_34_calls
