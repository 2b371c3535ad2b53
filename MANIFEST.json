{
 "claims": [
  {
   "property": "C01",
   "status": "proved",
   "theorems": [
    "c01_power_nat",
    "c01_power_neg",
    "c01_power_positive_exponent",
    "c01_power_zero",
    "c01_power_zero_refuted"
   ],
   "note": ""
  },
  {
   "property": "C02",
   "status": "proved",
   "theorems": [
    "c02_evaluate_short",
    "c02_evaluate_sparse",
    "c02_at_zero",
    "c02_at_zero_refuted"
   ],
   "note": ""
  },
  {
   "property": "C03",
   "status": "proved",
   "theorems": [
    "c03_sparse_mvp_iff",
    "c03_sparse_mvp_no_err",
    "c03_left_product",
    "c03_adjoint"
   ],
   "note": ""
  },
  {
   "property": "C04",
   "status": "proved",
   "theorems": [
    "c04_vertical",
    "c04_horizontal"
   ],
   "note": ""
  },
  {
   "property": "C05",
   "status": "proved",
   "theorems": [
    "c05_power_iter",
    "c05_alpha_zero_refuted"
   ],
   "note": ""
  },
  {
   "property": "C06",
   "status": "proved",
   "theorems": [
    "c06_vector_power_mul"
   ],
   "note": ""
  },
  {
   "property": "C07",
   "status": "proved",
   "theorems": [
    "c07_power_power_mul"
   ],
   "note": ""
  },
  {
   "property": "C08",
   "status": "proved",
   "theorems": [
    "c08_reverse_omega",
    "c08_vector_poly_mul",
    "c08_vector_poly_mul_value"
   ],
   "note": ""
  },
  {
   "property": "C09",
   "status": "proved",
   "theorems": [
    "c09_eval_expression",
    "c09_eval_as_poly",
    "c09_expression_vector",
    "c09_add_expression",
    "c09_add_vector",
    "c09_accumulate_sum",
    "c09_accumulate_product",
    "c09_vector_index"
   ],
   "note": ""
  },
  {
   "property": "C10",
   "status": "proved",
   "theorems": [
    "c10_permutation",
    "c10_panics",
    "c10_forest_exact",
    "c10_duplicate_cancels",
    "c10_cycle_refuted"
   ],
   "note": ""
  },
  {
   "property": "C11",
   "status": "proved",
   "theorems": [
    "c11_satisfy_iff",
    "c11_satisfy_panics"
   ],
   "note": ""
  },
  {
   "property": "C12",
   "status": "proved",
   "theorems": [
    "c12_satisfy_iff"
   ],
   "note": ""
  },
  {
   "property": "C13",
   "status": "proved",
   "theorems": [
    "c13_random_hpr"
   ],
   "note": ""
  },
  {
   "property": "C14",
   "status": "proved",
   "theorems": [
    "c14_r1cs_size",
    "c14_pov_size",
    "c14_hpr_size_refuted"
   ],
   "note": ""
  },
  {
   "property": "C15",
   "status": "proved",
   "theorems": [
    "c15_satisfy_iff",
    "c15_short_witness_refuted"
   ],
   "note": ""
  },
  {
   "property": "C16",
   "status": "proved",
   "theorems": [
    "c16_values"
   ],
   "note": ""
  },
  {
   "property": "C17",
   "status": "proved",
   "theorems": [
    "c17_late_input",
    "c17_not_complete",
    "c17_complete",
    "c17_failed_call_unchanged",
    "c17_wrong_input_size",
    "c17_low_level_refuted"
   ],
   "note": ""
  },
  {
   "property": "C18",
   "status": "proved",
   "theorems": [
    "c18_distinct",
    "c18_range",
    "c18_witness_layout"
   ],
   "note": ""
  },
  {
   "property": "C19",
   "status": "proved",
   "theorems": [
    "c19_honest_witness",
    "c19_sound"
   ],
   "note": ""
  },
  {
   "property": "C20",
   "status": "proved",
   "theorems": [
    "c20_faithful",
    "c20_faithful_check",
    "c20_sound"
   ],
   "note": ""
  },
  {
   "property": "C21",
   "status": "proved",
   "theorems": [
    "c21_panics_iff",
    "c21_wrong_length_panics",
    "c21_unused_column_refuted",
    "c21_order_refuted"
   ],
   "note": ""
  },
  {
   "property": "C22",
   "status": "proved",
   "theorems": [
    "c22_double_assert",
    "c22_duplicate_row_refuted"
   ],
   "note": ""
  },
  {
   "property": "C23",
   "status": "proved",
   "theorems": [
    "c23_setup"
   ],
   "note": ""
  },
  {
   "property": "C24",
   "status": "proved",
   "theorems": [
    "c24_commit_value",
    "c24_commit_too_long",
    "c24_commit_linear"
   ],
   "note": ""
  },
  {
   "property": "C25",
   "status": "proved",
   "theorems": [
    "c25_open_check",
    "c25_open_constant_panics",
    "c25_open_too_long",
    "c25_witness_quotient"
   ],
   "note": ""
  },
  {
   "property": "C26",
   "status": "proved",
   "theorems": [
    "c26_check_iff",
    "c26_check_unique_value",
    "c26_wrong_value_needs_trapdoor"
   ],
   "note": ""
  },
  {
   "property": "C27",
   "status": "proved",
   "theorems": [
    "c27_batch_complete"
   ],
   "note": ""
  },
  {
   "property": "C28",
   "status": "proved",
   "theorems": [
    "c28_batch_sound",
    "c28_batch_iff",
    "c28_predictable_randomizer_forgery"
   ],
   "note": ""
  },
  {
   "property": "C29",
   "status": "proved",
   "theorems": [
    "c29_vector_commitment",
    "c29_vector_commitment_refused",
    "c29_vector_commitment_empty",
    "c29_scalar_commitment",
    "c29_commitment_add_assign"
   ],
   "note": ""
  },
  {
   "property": "C30",
   "status": "proved",
   "theorems": [
    "c30_returned_proofs_are_accepted",
    "c30_complete",
    "c30_index_ok"
   ],
   "note": ""
  },
  {
   "property": "C31",
   "status": "proved",
   "theorems": [
    "c31_instance_malleable_refuted",
    "c31_false_statement_accepted_refuted"
   ],
   "note": ""
  },
  {
   "property": "C32",
   "status": "proved",
   "theorems": [
    "c32_returned_proofs_are_accepted",
    "c32_complete",
    "c32_index_ok"
   ],
   "note": ""
  },
  {
   "property": "C33",
   "status": "proved",
   "theorems": [
    "c33_no_constants_panics",
    "c33_duplicate_position_refuted",
    "c33_public_constant_refuted"
   ],
   "note": ""
  },
  {
   "property": "C34",
   "status": "proved",
   "theorems": [
    "c34_round_trip",
    "c34_try_to_int",
    "c34_to_int_panics"
   ],
   "note": ""
  },
  {
   "property": "C35",
   "status": "proved",
   "theorems": [
    "c35_universal_params_roundtrip",
    "c35_verifier_key_roundtrip",
    "c35_serialized_size"
   ],
   "note": ""
  },
  {
   "property": "C36",
   "status": "proved",
   "theorems": [
    "c36_fmt_field",
    "c36_fmt_field_injective"
   ],
   "note": ""
  },
  {
   "property": "C37",
   "status": "proved",
   "theorems": [
    "c37_custom_add"
   ],
   "note": ""
  },
  {
   "property": "C38",
   "status": "proved",
   "theorems": [
    "c38_sparse_vector",
    "c38_eval_sparse_vector",
    "c38_duplicate_refuted",
    "c38_zero_one"
   ],
   "note": ""
  },
  {
   "property": "C39",
   "status": "proved",
   "theorems": [
    "c39_linear_combinations",
    "c39_multi_delta",
    "c39_zero_pad",
    "c39_hadamard",
    "c39_uwinverse",
    "c39_check_vector_eq",
    "c39_density"
   ],
   "note": ""
  },
  {
   "property": "C40",
   "status": "proved",
   "theorems": [
    "c40_from_ark"
   ],
   "note": ""
  },
  {
   "property": "C41",
   "status": "proved",
   "theorems": [
    "c41_degree_bounds"
   ],
   "note": ""
  },
  {
   "property": "C42",
   "status": "proved",
   "theorems": [
    "c42_prepared_doublings"
   ],
   "note": ""
  },
  {
   "property": "C43",
   "status": "proved",
   "theorems": [
    "c43_prover_checks",
    "c43_false_statement"
   ],
   "note": ""
  },
  {
   "property": "C44",
   "status": "proved",
   "theorems": [
    "c44_single_step_refuted"
   ],
   "note": ""
  },
  {
   "property": "C45",
   "status": "proved",
   "theorems": [
    "c45_returned_proofs_are_accepted",
    "c45_complete",
    "c45_index_ok"
   ],
   "note": ""
  },
  {
   "property": "C46",
   "status": "proved",
   "theorems": [
    "c46_no_constants_panics",
    "c46_duplicate_position_refuted"
   ],
   "note": ""
  },
  {
   "property": "C47",
   "status": "proved",
   "theorems": [
    "c47_opening_binds",
    "c47_batch_opening_binds"
   ],
   "note": ""
  },
  {
   "property": "C48",
   "status": "proved",
   "theorems": [
    "c48_sound",
    "c48_sound_permutation",
    "c48_repeated_wire_refuted",
    "c48_duplicate_position_refuted"
   ],
   "note": ""
  },
  {
   "property": "C49",
   "status": "proved",
   "theorems": [
    "c49_sound",
    "c49_nothing_else",
    "c49_false_statement_accepted_refuted"
   ],
   "note": ""
  },
  {
   "property": "C50",
   "status": "proved",
   "theorems": [
    "c50_pv_binds",
    "c50_pv_separate",
    "c50_pe_binds",
    "c50_pe_separate",
    "c50_fb_binds",
    "c50_fb_separate",
    "c50_r1_binds",
    "c50_r1_separate",
    "c50_rp_binds",
    "c50_rp_separate",
    "c50_hp_binds",
    "c50_hp_separate",
    "c50_rc_binds",
    "c50_rc_separate"
   ],
   "note": ""
  },
  {
   "property": "C51",
   "status": "proved",
   "theorems": [
    "c51_returned_proofs_are_accepted",
    "c51_complete",
    "c51_index_ok"
   ],
   "note": ""
  },
  {
   "property": "C52",
   "status": "proved",
   "theorems": [
    "c52_sparse_system_panics",
    "c52_wrong_length_panics",
    "c52_many_rows_refuted"
   ],
   "note": ""
  },
  {
   "property": "C53",
   "status": "proved",
   "theorems": [
    "c53_any_instance_length"
   ],
   "note": ""
  },
  {
   "property": "C54",
   "status": "proved",
   "theorems": [
    "c54_sound_any_length",
    "c54_sound"
   ],
   "note": ""
  },
  {
   "property": "C55",
   "status": "proved",
   "theorems": [
    "c55_returned_proofs_are_accepted",
    "c55_complete",
    "c55_index_ok"
   ],
   "note": ""
  },
  {
   "property": "C56",
   "status": "proved",
   "theorems": [
    "c56_sparse_system_panics",
    "c56_wide_system_panics",
    "c56_wrong_length_panics",
    "c56_any_instance_length",
    "c56_many_inputs_refuted"
   ],
   "note": ""
  },
  {
   "property": "C57",
   "status": "proved",
   "theorems": [
    "c57_sound_any_length",
    "c57_sound"
   ],
   "note": ""
  },
  {
   "property": "C58",
   "status": "proved",
   "theorems": [
    "c58_returned_proofs_are_accepted",
    "c58_proof_needs_a_zero",
    "c58_completeness_refuted",
    "c58_long_lookup_needs_a_zero"
   ],
   "note": ""
  },
  {
   "property": "C59",
   "status": "proved",
   "theorems": [
    "c59_sound",
    "c59_long_lookup_refuted"
   ],
   "note": ""
  },
  {
   "property": "C60",
   "status": "proved",
   "theorems": [
    "c60_returned_proofs_are_accepted",
    "c60_complete",
    "c60_index_ok"
   ],
   "note": ""
  },
  {
   "property": "C61",
   "status": "proved",
   "theorems": [
    "c61_sparse_system_panics",
    "c61_long_witness_panics",
    "c61_only_the_concatenation_counts",
    "c61_fewer_entries_refuted",
    "c61_more_entries_refuted"
   ],
   "note": ""
  },
  {
   "property": "C62",
   "status": "proved",
   "theorems": [
    "c62_acceptance_enforces",
    "c62_sound",
    "c62_enforced_is_provable",
    "c62_more_entries_refuted",
    "c62_long_instance_refuted"
   ],
   "note": ""
  },
  {
   "property": "C63",
   "status": "proved",
   "theorems": [
    "c63_pov_guesses_testable",
    "c63_pov_pe_guesses_testable",
    "c63_r1cs_guesses_testable",
    "c63_r1cs_pe_guesses_testable",
    "c63_hpr_guesses_testable"
   ],
   "note": ""
  },
  {
   "property": "C64",
   "status": "proved",
   "theorems": [
    "c64_poly_gate",
    "c64_poly_gate_succeeds",
    "c64_constrain_to_constant",
    "c64_assert_equal",
    "c64_boolean_gate",
    "c64_constant_witness",
    "c64_arithmetic_gate_given",
    "c64_arithmetic_gate_new",
    "c64_output_coefficient_refuted",
    "c64_arithmetic_gate_succeeds"
   ],
   "note": ""
  },
  {
   "property": "C65",
   "status": "proved",
   "theorems": [
    "c65_is_zero",
    "c65_is_equal",
    "c65_conditional_select",
    "c65_conditional_select_zero",
    "c65_conditional_select_one",
    "c65_full_affine_transform",
    "c65_partial_affine_transform",
    "c65_lookup_gate"
   ],
   "note": ""
  },
  {
   "property": "C66",
   "status": "proved",
   "theorems": [
    "c66_range_gate",
    "c66_range_gate_succeeds"
   ],
   "note": ""
  },
  {
   "property": "C67",
   "status": "proved",
   "theorems": [
    "c67_logic_gate_honest",
    "c67_logic_gate_unbound_refuted",
    "c67_logic_gate_succeeds"
   ],
   "note": ""
  },
  {
   "property": "C68",
   "status": "proved",
   "theorems": [
    "c68_sum_unique",
    "c68_point_addition",
    "c68_point_addition_honest",
    "c68_identity",
    "c68_assert_equal_point",
    "c68_assert_equal_public_point",
    "c68_add_affine",
    "c68_add_public_affine",
    "c68_add_constant_affine",
    "c68_select_bit",
    "c68_conditional_point_select",
    "c68_conditional_point_neg",
    "c68_conditional_select_identity"
   ],
   "note": ""
  },
  {
   "property": "C69",
   "status": "proved",
   "theorems": [
    "c69_fixed_base",
    "c69_fixed_base_succeeds_refuted",
    "c69_variable_base",
    "c69_two_results_refuted",
    "c69_fixed_base_panics_refuted"
   ],
   "note": ""
  },
  {
   "property": "C70",
   "status": "proved",
   "theorems": [
    "c70_well_formed",
    "c70_new",
    "c70_blinding",
    "c70_padding",
    "c70_insert_row",
    "c70_gadgets_build"
   ],
   "note": ""
  },
  {
   "property": "C71",
   "status": "proved",
   "theorems": [
    "c71_insert",
    "c71_unique",
    "c71_from_val_pos",
    "c71_duplicates_refuted",
    "c71_round_trip",
    "c71_evals",
    "c71_circuit"
   ],
   "note": ""
  },
  {
   "property": "C72",
   "status": "proved",
   "theorems": [
    "c72_permutation",
    "c72_order",
    "c72_complete",
    "c72_sound"
   ],
   "note": ""
  },
  {
   "property": "C73",
   "status": "proved",
   "theorems": [
    "c73_sigma_values",
    "c73_prover_panics",
    "c73_complete",
    "c73_sound",
    "c73_circuit_sound",
    "c73_cosets"
   ],
   "note": ""
  },
  {
   "property": "C74",
   "status": "proved",
   "theorems": [
    "c74_split",
    "c74_logic_kind",
    "c74_complete",
    "c74_sound",
    "c74_gate_iff"
   ],
   "note": ""
  },
  {
   "property": "C75",
   "status": "proved",
   "theorems": [
    "c75_combine_split",
    "c75_round",
    "c75_honest",
    "c75_prover_panics",
    "c75_complete",
    "c75_sound",
    "c75_duplicates_refuted"
   ],
   "note": ""
  },
  {
   "property": "C76",
   "status": "proved",
   "theorems": [
    "c76_ifft",
    "c76_quotient",
    "c76_split",
    "c76_exact",
    "c76_complete",
    "c76_sound",
    "c76_z2_refuted"
   ],
   "note": ""
  },
  {
   "property": "C77",
   "status": "proved",
   "theorems": [
    "c77_linearisation",
    "c77_honest",
    "c77_complete",
    "c77_sound",
    "c77_selector_evals_refuted",
    "c77_table_eval_refuted",
    "c77_z2_refuted",
    "c77_panics"
   ],
   "note": ""
  },
  {
   "property": "C78",
   "status": "proved",
   "theorems": [
    "c78_agree",
    "c78_complete",
    "c78_bound",
    "c78_seed",
    "c78_forgery_refuted",
    "c78_prover_history",
    "c78_verifier_history",
    "c78_histories_agree",
    "c78_verifier_twice_refuted",
    "c78_clear_refuted",
    "c78_circuit",
    "c78_circuit_key_refuted"
   ],
   "note": ""
  },
  {
   "property": "C79",
   "status": "proved",
   "theorems": [
    "c79_input",
    "c79_native",
    "c79_arity",
    "c79_padding_refuted",
    "c79_reset",
    "c79_second_output_refuted",
    "c79_circuit",
    "c79_tag_refuted",
    "c79_zz",
    "c79_zz_keys_refuted"
   ],
   "note": ""
  },
  {
   "property": "C80",
   "status": "proved",
   "theorems": [
    "c80_invert",
    "c80_is_invertible",
    "c80_apply",
    "c80_product",
    "c80_not_square_refuted",
    "c80_derive",
    "c80_generate",
    "c80_small_field_refuted",
    "c80_new",
    "c80_width_one_refuted",
    "c80_factors_refuted"
   ],
   "note": ""
  },
  {
   "property": "C81",
   "status": "proved",
   "theorems": [
    "c81_sparse",
    "c81_optimised",
    "c81_generate",
    "c81_generate_only",
    "c81_fits",
    "c81_wide_refuted",
    "c81_sparse_refuted"
   ],
   "note": ""
  },
  {
   "property": "C82",
   "status": "proved",
   "theorems": [
    "c82_sequence",
    "c82_generate",
    "c82_generate_only",
    "c82_constants",
    "c82_parameters",
    "c82_cut_refuted"
   ],
   "note": ""
  },
  {
   "property": "C83",
   "status": "proved",
   "theorems": [
    "c83_optimal",
    "c83_none"
   ],
   "note": ""
  },
  {
   "property": "C84",
   "status": "proved",
   "theorems": [
    "c84_insert",
    "c84_insert_only",
    "c84_lookup",
    "c84_tables",
    "c84_collision_refuted"
   ],
   "note": ""
  },
  {
   "property": "C85",
   "status": "proved",
   "theorems": [
    "c85_circuit_size",
    "c85_circuit_meaning",
    "c85_r1cs_example_passes",
    "c85_r1cs_example_small_panics",
    "c85_fibonacci_example_passes",
    "c85_hpr_example_passes",
    "c85_hpr_example_zero_panics",
    "c85_range_check_example_refuted",
    "c85_main_passes_refuted"
   ],
   "note": ""
  }
 ]
}