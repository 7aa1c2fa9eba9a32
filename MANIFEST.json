{
 "claims": [
  {
   "property": "C01",
   "status": "proved",
   "theorems": [
    "builder_satisfied_iff_requests",
    "builder_selectors"
   ],
   "note": "Conditional on the random values separating the gates of the history, and on selectors being set by enable_selector (see C31)."
  },
  {
   "property": "C02",
   "status": "proved",
   "theorems": [
    "gate_mover_renames",
    "gate_mover_table",
    "gate_mover_identity",
    "gate_mover_composes"
   ],
   "note": ""
  },
  {
   "property": "C03",
   "status": "proved",
   "theorems": [
    "addition_sound",
    "addition_complete",
    "addition_empty_agrees",
    "subtraction_sound",
    "subtraction_complete",
    "subtraction_empty_agrees",
    "multiplication_sound",
    "multiplication_complete",
    "multiplication_empty_agrees"
   ],
   "note": ""
  },
  {
   "property": "C04",
   "status": "proved",
   "theorems": [
    "mul_by_constant_sound",
    "mul_by_constant_complete",
    "mul_by_constant_empty_agrees"
   ],
   "note": ""
  },
  {
   "property": "C05",
   "status": "proved",
   "theorems": [
    "division_sound",
    "division_complete",
    "division_empty_agrees",
    "division_or_zero_sound",
    "division_or_zero_complete",
    "division_or_zero_empty_agrees"
   ],
   "note": ""
  },
  {
   "property": "C06",
   "status": "proved",
   "theorems": [
    "and_flag_sound",
    "and_flag_complete",
    "and_flag_empty_agrees",
    "or_flag_sound",
    "or_flag_complete",
    "or_flag_empty_agrees"
   ],
   "note": ""
  },
  {
   "property": "C07",
   "status": "proved",
   "theorems": [
    "equality_flag_sound",
    "equality_flag_complete"
   ],
   "note": ""
  },
  {
   "property": "C08",
   "status": "proved",
   "theorems": [
    "range_check_sound",
    "range_check_sound_residue",
    "range_check_complete"
   ],
   "note": ""
  },
  {
   "property": "C09",
   "status": "proved",
   "theorems": [
    "bit_decomposition_sound",
    "bit_decomposition_complete",
    "bit_decomposition_empty_agrees"
   ],
   "note": ""
  },
  {
   "property": "C10",
   "status": "proved",
   "theorems": [
    "bit_composition_sound",
    "bit_composition_complete",
    "bit_composition_empty_agrees",
    "bit_composition_unchecked_bits_refuted"
   ],
   "note": ""
  },
  {
   "property": "C11",
   "status": "proved",
   "theorems": [
    "bit_shift_constant_sound",
    "bit_shift_constant_complete"
   ],
   "note": ""
  },
  {
   "property": "C12",
   "status": "proved",
   "theorems": [
    "comparison_unchecked_sound",
    "comparison_unchecked_complete"
   ],
   "note": ""
  },
  {
   "property": "C13",
   "status": "proved",
   "theorems": [
    "comparison_checked_sound",
    "comparison_checked_bound",
    "comparison_checked_bound_bits",
    "comparison_checked_complete"
   ],
   "note": ""
  },
  {
   "property": "C14",
   "status": "proved",
   "theorems": [
    "comparison_flag_sound",
    "comparison_flag_ok_cases",
    "comparison_flag_complete",
    "comparison_flag_calculate",
    "comparison_flag_empty_agrees"
   ],
   "note": ""
  },
  {
   "property": "C15",
   "status": "proved",
   "theorems": [
    "division_remainder_equation",
    "division_remainder_complete",
    "division_remainder_empty_agrees"
   ],
   "note": ""
  },
  {
   "property": "C16",
   "status": "proved",
   "theorems": [
    "exp_sound",
    "exp_exact",
    "exp_complete"
   ],
   "note": ""
  },
  {
   "property": "C17",
   "status": "proved",
   "theorems": [
    "sqrt_sound",
    "sqrt_complete"
   ],
   "note": ""
  },
  {
   "property": "C18",
   "status": "proved",
   "theorems": [
    "linear_interpolation_sound",
    "linear_interpolation_complete",
    "quadratic_interpolation_sound",
    "quadratic_interpolation_complete"
   ],
   "note": ""
  },
  {
   "property": "C19",
   "status": "proved",
   "theorems": [
    "logic_sound",
    "logic_select_sound",
    "logic_complete",
    "logic_select_complete_refuted",
    "lookup_logic_sound",
    "lookup_logic_complete"
   ],
   "note": "logic_select_complete_refuted shows that the Boolean-condition hypothesis of the select component is needed for honest rows."
  },
  {
   "property": "C20",
   "status": "proved",
   "theorems": [
    "zkevm_add_sound",
    "zkevm_sub_sound"
   ],
   "note": ""
  },
  {
   "property": "C21",
   "status": "proved",
   "theorems": [
    "zkevm_iszero_sound"
   ],
   "note": ""
  },
  {
   "property": "C22",
   "status": "proved",
   "theorems": [
    "zkevm_mul_sound"
   ],
   "note": ""
  },
  {
   "property": "C23",
   "status": "proved",
   "theorems": [
    "zkevm_div_sound"
   ],
   "note": ""
  },
  {
   "property": "C24",
   "status": "proved",
   "theorems": [
    "manifest_intersect_exact",
    "manifest_satisfiable_exact",
    "manifest_max_exact",
    "manifest_subtract_exact",
    "manifest_merge_safe",
    "manifest_merge_constants",
    "compiler_intersect_exact"
   ],
   "note": ""
  },
  {
   "property": "C25",
   "status": "proved",
   "theorems": [
    "batch_queue_shares",
    "batch_queue_values",
    "batch_sound",
    "batch_complete",
    "batch_slots"
   ],
   "note": "The component is abstract: its constraints, input and output columns and the row its assignment writes are parameters; finalize_batch copies of the first input fill the last row. The order of the map of inputs is left open."
  },
  {
   "property": "C26",
   "status": "proved",
   "theorems": [
    "finalize_constants_preserves",
    "finalize_constants_places",
    "finalize_constants_defined"
   ],
   "note": ""
  },
  {
   "property": "C27",
   "status": "proved",
   "theorems": [
    "packing_correct",
    "packing_zero_refuted"
   ],
   "note": "packing_zero_refuted shows that the hypothesis of one positive size is needed; the only caller passes sizes of at least 1."
  },
  {
   "property": "C28",
   "status": "proved",
   "theorems": [
    "var_value_last_write",
    "allocated_rows_spec",
    "batch_constant_variable",
    "batch_variable"
   ],
   "note": ""
  },
  {
   "property": "C29",
   "status": "partial",
   "theorems": [
    "mul_by_constant_constant_column_refuted",
    "range_check_constant_column_refuted",
    "bit_decomposition_constant_column_refuted"
   ],
   "note": "The claim is false of the code: refuted by concrete accepted tables for three components. The behaviour on column 0 is proved under C04, C08-C11."
  },
  {
   "property": "C30",
   "status": "proved",
   "theorems": [
    "gate_id_order",
    "lookup_gate_id_order",
    "gate_id_equal_polynomials"
   ],
   "note": ""
  },
  {
   "property": "C31",
   "status": "partial",
   "theorems": [
    "lookup_gate_id_collision_refuted",
    "raw_selector_unchecked_refuted",
    "public_column_variable_refuted",
    "selector_variable_refuted"
   ],
   "note": "The claim is false of the code in each part: zero-input lookups into different tables share an identifier for every random choice, rows beyond the allocated ones are not checked, and variables of public columns above 0 or of selectors read other columns."
  },
  {
   "property": "C32",
   "status": "partial",
   "theorems": [
    "comparison_checked_range_refuted",
    "comparison_checked_odd_range_refuted"
   ],
   "note": "The claim is false of the code: refuted by concrete accepted tables. What does hold is C13."
  },
  {
   "property": "C33",
   "status": "partial",
   "theorems": [
    "comparison_flag_range_refuted",
    "comparison_flag_result_refuted"
   ],
   "note": "The claim is false of the code: refuted by concrete accepted tables. What does hold is C14."
  },
  {
   "property": "C34",
   "status": "partial",
   "theorems": [
    "division_remainder_refuted"
   ],
   "note": "The claim is false of the code: refuted by a concrete accepted table. What does hold is C15."
  },
  {
   "property": "C35",
   "status": "proved",
   "theorems": [
    "state_selector_sound",
    "state_selector_complete"
   ],
   "note": ""
  },
  {
   "property": "C36",
   "status": "proved",
   "theorems": [
    "zkevm_program_complete"
   ],
   "note": ""
  },
  {
   "property": "C37",
   "status": "proved",
   "theorems": [
    "zkevm_trace_blocks",
    "zkevm_state_frozen"
   ],
   "note": ""
  },
  {
   "property": "C38",
   "status": "proved",
   "theorems": [
    "zkevm_machine_unchanged"
   ],
   "note": ""
  },
  {
   "property": "C39",
   "status": "partial",
   "theorems": [
    "zkevm_div_euclid_refuted",
    "zkevm_div_row_selector_refuted"
   ],
   "note": "The claim is false of the code: refuted by concrete accepted tables. What does hold is C23."
  },
  {
   "property": "C40",
   "status": "partial",
   "theorems": [
    "zkevm_add_range_refuted",
    "zkevm_div_cut_refuted"
   ],
   "note": "The claim is false of the code: refuted by concrete accepted tables (range checks are marked TODO in the source). What does hold is C37."
  },
  {
   "property": "C41",
   "status": "partial",
   "theorems": [
    "zkevm_iszero_add_refuted"
   ],
   "note": "The claim is false of the code: the run ISZERO, ADD is rejected. Programs without a longer opcode right after ISZERO are proved accepted in C36."
  },
  {
   "property": "C42",
   "status": "partial",
   "theorems": [
    "zkevm_pc_refuted",
    "zkevm_registers_free",
    "state_selector_input_refuted"
   ],
   "note": "The claim is false of the code: refuted by concrete accepted tables."
  },
  {
   "property": "C43",
   "status": "partial",
   "theorems": [
    "exp_exact_refuted",
    "exp_columns_refuted",
    "exp_constants_refuted"
   ],
   "note": "The claim is false of the code: refuted. What does hold is C16."
  },
  {
   "property": "C44",
   "status": "partial",
   "theorems": [
    "sqrt_sound_refuted"
   ],
   "note": "The claim is false of the code: refuted for every field of characteristic 1 mod 8 in which a second exponent fits in 256 bits. What does hold is C17."
  },
  {
   "property": "C45",
   "status": "partial",
   "theorems": [
    "intersect_residue_refuted",
    "satisfiable_refuted",
    "max_refuted",
    "subtract_refuted",
    "merge_end_refuted",
    "merge_small_refuted",
    "lenient_set_refuted",
    "set_max_refuted"
   ],
   "note": "The claim is false of the code: each listed theorem refutes one part. What does hold is C24."
  },
  {
   "property": "C46",
   "status": "partial",
   "theorems": [
    "finalize_overwrites_refuted",
    "finalize_out_of_bounds_refuted"
   ],
   "note": "The claim is false of the code: refuted by circuits built through the API. What does hold is C26."
  },
  {
   "property": "C47",
   "status": "proved",
   "theorems": [
    "flex_ops_sound",
    "flex_ops_complete"
   ],
   "note": ""
  },
  {
   "property": "C48",
   "status": "proved",
   "theorems": [
    "flex_swap_sound",
    "flex_swap_complete"
   ],
   "note": ""
  },
  {
   "property": "C49",
   "status": "proved",
   "theorems": [
    "constant_pow_constructs",
    "constant_pow_sound",
    "constant_pow_complete"
   ],
   "note": ""
  },
  {
   "property": "C50",
   "status": "partial",
   "theorems": [
    "constant_pow_sound_refuted",
    "constant_pow_output_refuted",
    "constant_pow_constructs_refuted"
   ],
   "note": "The claim is false of the code: refuted for all fields. What does hold is C49."
  },
  {
   "property": "C51",
   "status": "proved",
   "theorems": [
    "x_index_sound",
    "x_index_complete"
   ],
   "note": ""
  },
  {
   "property": "C52",
   "status": "partial",
   "theorems": [
    "x_index_bit_refuted",
    "x_index_sound_refuted",
    "x_index_input_refuted"
   ],
   "note": "The claim is false of the code: refuted. What does hold is C51."
  },
  {
   "property": "C53",
   "status": "proved",
   "theorems": [
    "pow_factor_sound",
    "pow_factor_complete",
    "pow_factor_rows"
   ],
   "note": ""
  },
  {
   "property": "C54",
   "status": "partial",
   "theorems": [
    "colinear_exact",
    "colinear_sound_refuted"
   ],
   "note": "The claim is false of the code: colinear_sound_refuted shows that the circuit constrains nothing about its inputs; colinear_exact states what the gate does say."
  },
  {
   "property": "C55",
   "status": "proved",
   "theorems": [
    "poseidon_sound",
    "poseidon_complete",
    "flex_poseidon_sound",
    "flex_poseidon_complete"
   ],
   "note": ""
  },
  {
   "property": "C56",
   "status": "partial",
   "theorems": [
    "flex_poseidon_sound_refuted"
   ],
   "note": "The claim is false of the code: refuted for all fields, constants and widths. What does hold is C55."
  },
  {
   "property": "C57",
   "status": "proved",
   "theorems": [
    "nn_range_sound_looked_up",
    "nn_range_complete"
   ],
   "note": ""
  },
  {
   "property": "C58",
   "status": "proved",
   "theorems": [
    "nn_add_sound_looked_up",
    "nn_sub_sound_looked_up",
    "nn_mul_sound_looked_up",
    "nn_add_complete",
    "nn_sub_complete",
    "nn_mul_complete",
    "nn_empty_values"
   ],
   "note": ""
  },
  {
   "property": "C59",
   "status": "partial",
   "theorems": [
    "nn_range_sound_refuted",
    "nn_add_sound_refuted",
    "nn_sub_sound_refuted",
    "nn_mul_sound_refuted"
   ],
   "note": "The claim is false of the code: refuted for all fields and inputs. What does hold is C57 and C58."
  },
  {
   "property": "C60",
   "status": "partial",
   "theorems": [
    "nn_sub_complete_refuted",
    "nn_add_columns_refuted"
   ],
   "note": "The claim is false of the code: refuted. What does hold is C58."
  },
  {
   "property": "C61",
   "status": "proved",
   "theorems": [
    "fri_lin_inter_sound",
    "fri_lin_inter_complete",
    "fri_lin_inter_zero_unconstrained"
   ],
   "note": ""
  },
  {
   "property": "C62",
   "status": "proved",
   "theorems": [
    "fri_array_swap_sound",
    "fri_array_swap_complete"
   ],
   "note": ""
  },
  {
   "property": "C63",
   "status": "proved",
   "theorems": [
    "fri_cosets_sound",
    "fri_cosets_roots",
    "fri_cosets_complete"
   ],
   "note": ""
  },
  {
   "property": "C64",
   "status": "partial",
   "theorems": [
    "fri_cosets_sound_refuted",
    "fri_cosets_complete_refuted"
   ],
   "note": "The claim is false of the code: refuted. What does hold is C63."
  },
  {
   "property": "C65",
   "status": "proved",
   "theorems": [
    "permutation_verifier_sound",
    "permutation_verifier_complete"
   ],
   "note": ""
  },
  {
   "property": "C66",
   "status": "partial",
   "theorems": [
    "permutation_verifier_single_sound_refuted",
    "permutation_verifier_single_complete_refuted"
   ],
   "note": "The claim is false of the code: refuted. What does hold is C65."
  },
  {
   "property": "C67",
   "status": "proved",
   "theorems": [
    "gate_component_sound",
    "gate_component_complete"
   ],
   "note": ""
  },
  {
   "property": "C68",
   "status": "proved",
   "theorems": [
    "basic_constraints_sound",
    "basic_constraints_complete"
   ],
   "note": ""
  },
  {
   "property": "C69",
   "status": "proved",
   "theorems": [
    "f1_loop_sound",
    "f1_loop_complete"
   ],
   "note": ""
  },
  {
   "property": "C70",
   "status": "proved",
   "theorems": [
    "f3_loop_sound",
    "f3_loop_complete"
   ],
   "note": ""
  },
  {
   "property": "C71",
   "status": "partial",
   "theorems": [
    "f3_loop_wide_sound_refuted",
    "f3_loop_single_row_complete_refuted"
   ],
   "note": "The claim is false of the code: refuted. What does hold is C70."
  },
  {
   "property": "C72",
   "status": "proved",
   "theorems": [
    "lookup_verifier_sound",
    "lookup_verifier_complete"
   ],
   "note": ""
  },
  {
   "property": "C73",
   "status": "partial",
   "theorems": [
    "lookup_verifier_wide_sound_refuted",
    "lookup_verifier_single_row_complete_refuted"
   ],
   "note": "The claim is false of the code: refuted. What does hold is C72."
  },
  {
   "property": "C74",
   "status": "proved",
   "theorems": [
    "expression_evaluation_sound",
    "expression_evaluation_value",
    "expression_evaluation_agrees"
   ],
   "note": ""
  },
  {
   "property": "C75",
   "status": "proved",
   "theorems": [
    "final_polynomial_sound",
    "final_polynomial_defined",
    "final_polynomial_complete"
   ],
   "note": ""
  },
  {
   "property": "C76",
   "status": "proved",
   "theorems": [
    "unified_addition_sound",
    "unified_addition_complete",
    "curve_addition_laws",
    "pasta_curves_fit"
   ],
   "note": ""
  },
  {
   "property": "C77",
   "status": "proved",
   "theorems": [
    "endo_scalar_sound",
    "endo_scalar_complete"
   ],
   "note": ""
  },
  {
   "property": "C78",
   "status": "partial",
   "theorems": [
    "endo_scalar_sound_refuted",
    "endo_scalar_size_complete_refuted"
   ],
   "note": "The claim is false of the code: refuted. What does hold is C77."
  },
  {
   "property": "C79",
   "status": "proved",
   "theorems": [
    "vbsm_sound",
    "vbsm_complete",
    "vbsm_ladder_multiple",
    "vbsm_special_scalars"
   ],
   "note": ""
  },
  {
   "property": "C80",
   "status": "partial",
   "theorems": [
    "vbsm_neutral_refuted",
    "vbsm_base_refuted",
    "vbsm_range_refuted",
    "vbsm_const_refuted"
   ],
   "note": "The claim is false of the code: refuted. What does hold is C79. Not settled: on Vesta the constants for the special scalars decode as n + 2^255 while the ladder gives 2n + 2^255 + 1."
  },
  {
   "property": "C81",
   "status": "proved",
   "theorems": [
    "sha256_calculate",
    "sha256_process_complete",
    "sha256_process_missing_copies_hold",
    "sha256_schedule_sound",
    "sha256_process_sound_with_missing_copies"
   ],
   "note": ""
  },
  {
   "property": "C82",
   "status": "partial",
   "theorems": [
    "sha256_process_sound_refuted",
    "sha256_process_output_range_refuted",
    "sha256_process_wrong_hash_refuted"
   ],
   "note": "The claim is false of the code: refuted. What does hold is C81."
  },
  {
   "property": "C83",
   "status": "proved",
   "theorems": [
    "decomposition_calculate",
    "decomposition_complete",
    "decomposition_sound_with_range_checks"
   ],
   "note": ""
  },
  {
   "property": "C84",
   "status": "partial",
   "theorems": [
    "decomposition_sound_refuted"
   ],
   "note": "The claim is false of the code: refuted. What does hold is C83."
  },
  {
   "property": "C85",
   "status": "proved",
   "theorems": [
    "sha256_hash_calculate",
    "sha256_complete",
    "sha256_missing_copies_hold",
    "sha256_sound_with_missing_copies"
   ],
   "note": ""
  },
  {
   "property": "C86",
   "status": "partial",
   "theorems": [
    "sha256_sound_refuted",
    "sha256_wrong_digest_refuted"
   ],
   "note": "The claim is false of the code: refuted. What does hold is C85."
  },
  {
   "property": "C87",
   "status": "proved",
   "theorems": [
    "bytecode_sound",
    "bytecode_sound_marks",
    "bytecode_rows_covered"
   ],
   "note": ""
  },
  {
   "property": "C88",
   "status": "partial",
   "theorems": [
    "bytecode_any_contracts_refuted",
    "bytecode_hidden_code_refuted",
    "bytecode_hidden_stop_refuted",
    "bytecode_empty_length_refuted",
    "bytecode_orphan_refuted"
   ],
   "note": "The claim is false of the code: refuted. What does hold is C87."
  },
  {
   "property": "C89",
   "status": "proved",
   "theorems": [
    "bytecode_complete"
   ],
   "note": ""
  },
  {
   "property": "C90",
   "status": "partial",
   "theorems": [
    "bytecode_undefined_rejected_refuted",
    "bytecode_dirty_rejected_refuted",
    "bytecode_overflow_refuted"
   ],
   "note": "The claim is false of the code: refuted. What does hold is C89."
  },
  {
   "property": "C91",
   "status": "proved",
   "theorems": [
    "ed_addition_sound_looked_up",
    "ed_addition_complete"
   ],
   "note": ""
  },
  {
   "property": "C92",
   "status": "partial",
   "theorems": [
    "ed_addition_sound_refuted",
    "ed_addition_complete_refuted"
   ],
   "note": "The claim is false of the code: refuted. What does hold is C91."
  },
  {
   "property": "C93",
   "status": "proved",
   "theorems": [
    "ed_doubling_sound_with_copies",
    "ed_doubling_complete"
   ],
   "note": ""
  },
  {
   "property": "C94",
   "status": "partial",
   "theorems": [
    "ed_doubling_sound_refuted"
   ],
   "note": "The claim is false of the code: refuted. What does hold is C93."
  },
  {
   "property": "C95",
   "status": "proved",
   "theorems": [
    "ed_bool_multiplication_sound",
    "ed_bool_multiplication_complete"
   ],
   "note": ""
  },
  {
   "property": "C96",
   "status": "proved",
   "theorems": [
    "ed_bit_multiplication_sound_with_copies",
    "ed_bit_multiplication_complete"
   ],
   "note": ""
  },
  {
   "property": "C97",
   "status": "proved",
   "theorems": [
    "ed_multiplication_sound_with_copies",
    "ed_multiplication_complete"
   ],
   "note": ""
  },
  {
   "property": "C98",
   "status": "partial",
   "theorems": [
    "ed_multiplication_sound_refuted",
    "ed_multiplication_more_bits_sound",
    "ed_multiplication_more_bits_refuted",
    "ed_multiplication_lsb_refuted"
   ],
   "note": "The claim is false of the code: refuted. What does hold is C97; ed_multiplication_more_bits_sound says what is computed with more bits."
  },
  {
   "property": "C99",
   "status": "proved",
   "theorems": [
    "scalar_range_chunks",
    "scalar_range_sound_with_lookups",
    "scalar_range_complete"
   ],
   "note": ""
  },
  {
   "property": "C100",
   "status": "partial",
   "theorems": [
    "scalar_range_sound_refuted",
    "scalar_range_any_scalar",
    "scalar_range_any_chunks"
   ],
   "note": "The claim is false of the code: refuted. What does hold is C99."
  },
  {
   "property": "C101",
   "status": "proved",
   "theorems": [
    "scalar_reduction_sound_with_lookups",
    "scalar_reduction_two_results",
    "scalar_reduction_complete"
   ],
   "note": ""
  },
  {
   "property": "C102",
   "status": "partial",
   "theorems": [
    "scalar_reduction_sound_refuted",
    "scalar_reduction_any_result",
    "scalar_reduction_plus_order"
   ],
   "note": "The claim is false of the code: refuted. What does hold is C101."
  },
  {
   "property": "C103",
   "status": "proved",
   "theorems": [
    "proxies_transparent",
    "proxies_used",
    "proxies_used_copies",
    "proxies_parts_cover"
   ],
   "note": ""
  },
  {
   "property": "C104",
   "status": "partial",
   "theorems": [
    "proxy_check_copies_only",
    "proxy_check_refuted"
   ],
   "note": "The claim is false of the code: refuted. What the check does is proxy_check_copies_only."
  },
  {
   "property": "C105",
   "status": "partial",
   "theorems": [
    "proxy_gate_on_selector_refuted",
    "proxy_dynamic_selector_refuted",
    "proxy_batch_refuted",
    "proxy_copy_mark_refuted"
   ],
   "note": "The claim is false of the code: refuted. What does hold is C103."
  },
  {
   "property": "C106",
   "status": "proved",
   "theorems": [
    "save_shared_var_correct",
    "save_shared_var_vector",
    "save_shared_var_defined"
   ],
   "note": ""
  },
  {
   "property": "C107",
   "status": "proved",
   "theorems": [
    "connectedness_strong_exact",
    "connectedness_weak_exact",
    "connectedness_islands_exact"
   ],
   "note": ""
  },
  {
   "property": "C108",
   "status": "partial",
   "theorems": [
    "connectedness_constants_refuted",
    "connectedness_rows_refuted",
    "connectedness_affects_refuted"
   ],
   "note": "The claim is false of the code: refuted. What does hold is C107."
  },
  {
   "property": "C109",
   "status": "proved",
   "theorems": [
    "stretch_defined",
    "stretch_sound",
    "stretch_complete"
   ],
   "note": ""
  },
  {
   "property": "C110",
   "status": "partial",
   "theorems": [
    "stretch_inputs_refuted",
    "stretch_witness_input_refuted",
    "stretch_rows_refuted",
    "stretch_constants_refuted",
    "stretch_lookups_refuted",
    "stretch_selector_refuted"
   ],
   "note": "The claim is false of the code: refuted. What does hold is C109."
  },
  {
   "property": "C111",
   "status": "proved",
   "theorems": [
    "sha512_process_exact",
    "sha512_process_value",
    "sha512_process_complete"
   ],
   "note": ""
  },
  {
   "property": "C112",
   "status": "partial",
   "theorems": [
    "sha512_process_sound_refuted",
    "sha512_process_wrong_hash_refuted",
    "sha512_process_columns_refuted"
   ],
   "note": "The claim is false of the code: refuted. What does hold is C111."
  },
  {
   "property": "C113",
   "status": "proved",
   "theorems": [
    "proxy_checked_value"
   ],
   "note": ""
  },
  {
   "property": "C114",
   "status": "proved",
   "theorems": [
    "verifier_sound",
    "verifier_exact",
    "verifier_unread",
    "verifier_rows"
   ],
   "note": ""
  },
  {
   "property": "C115",
   "status": "partial",
   "theorems": [
    "verifier_folding_refuted",
    "verifier_position_refuted",
    "verifier_root_refuted"
   ],
   "note": "The claim is false of the code: refuted. What does hold is C114."
  },
  {
   "property": "C116",
   "status": "proved",
   "theorems": [
    "proof_layout",
    "proof_vectors",
    "verifier_proof",
    "layout_shaped"
   ],
   "note": ""
  },
  {
   "property": "C117",
   "status": "partial",
   "theorems": [
    "proof_layout_refuted"
   ],
   "note": "The claim is false of the code: refuted. What does hold is C116."
  },
  {
   "property": "C118",
   "status": "proved",
   "theorems": [
    "verifier_complete"
   ],
   "note": ""
  },
  {
   "property": "C119",
   "status": "proved",
   "theorems": [
    "colinear_complete"
   ],
   "note": ""
  },
  {
   "property": "C120",
   "status": "proved",
   "theorems": [
    "sha512_hash_complete"
   ],
   "note": ""
  },
  {
   "property": "C121",
   "status": "partial",
   "theorems": [
    "sha512_hash_sound_refuted",
    "sha512_hash_words_refuted",
    "sha512_hash_columns_refuted",
    "sha512_hash_padding_refuted"
   ],
   "note": "The claim is false of the code: refuted. What does hold is C120."
  },
  {
   "property": "C122",
   "status": "proved",
   "theorems": [
    "to_limbs_sound",
    "to_limbs_complete",
    "from_limbs_sound",
    "from_limbs_complete",
    "limbs_challenge"
   ],
   "note": ""
  },
  {
   "property": "C123",
   "status": "partial",
   "theorems": [
    "from_limbs_unique_refuted"
   ],
   "note": "The claim is false of the code: refuted. What does hold is C122."
  },
  {
   "property": "C124",
   "status": "proved",
   "theorems": [
    "mock_unsigned_small",
    "mock_unsigned_big",
    "mock_unsigned_compare",
    "mock_signed_small",
    "mock_signed_big_nonneg",
    "mock_abs",
    "mock_division_by_zero"
   ],
   "note": ""
  },
  {
   "property": "C125",
   "status": "partial",
   "theorems": [
    "mock_result_refuted",
    "mock_columns_refuted",
    "mock_signed_big_refuted"
   ],
   "note": "The claim is false of the code: refuted. What does hold is C124."
  },
  {
   "property": "C126",
   "status": "proved",
   "theorems": [
    "loader_line",
    "loader_short",
    "loader_table",
    "loader_missing"
   ],
   "note": ""
  },
  {
   "property": "C127",
   "status": "partial",
   "theorems": [
    "loader_long_refuted"
   ],
   "note": "The claim is false of the code: refuted. What does hold is C126."
  },
  {
   "property": "C128",
   "status": "proved",
   "theorems": [
    "shatab_threads",
    "shatab_base4",
    "shatab_base7",
    "shatab_lookup4",
    "shatab_lookup7",
    "shatab_word4",
    "shatab_word7"
   ],
   "note": ""
  },
  {
   "property": "C129",
   "status": "partial",
   "theorems": [
    "shatab_words_refuted",
    "shatab_small_refuted"
   ],
   "note": "The claim is false of the code: refuted. What does hold is C128."
  }
 ]
}
