{
 "claims": [
  {
   "property": "C01",
   "status": "proved",
   "theorems": [
    "C01_quantize_nearest",
    "C01_zero_point_limit_refuted"
   ],
   "note": "Holds away from the scaled values +-(0.5-2^-25) (see C10 for what happens there) and below 2^30 (see C36 for larger values)."
  },
  {
   "property": "C02",
   "status": "proved",
   "theorems": [
    "C02_layout"
   ],
   "note": ""
  },
  {
   "property": "C03",
   "status": "proved",
   "theorems": [
    "C03_footprint",
    "C03_frame",
    "C03_streaming_aligned",
    "C03_vector_steps_total"
   ],
   "note": ""
  },
  {
   "property": "C04",
   "status": "proved",
   "theorems": [
    "C04_schedule",
    "C04_schedule_dequantize",
    "C04_schedule_fused",
    "C04_threads",
    "C04_stochastic_any_data",
    "C04_nearest_same_paths"
   ],
   "note": ""
  },
  {
   "property": "C05",
   "status": "proved",
   "theorems": [
    "C05_quantize_no_shared_output",
    "C05_dequantize_no_shared_output",
    "C05_fused_no_shared_output"
   ],
   "note": ""
  },
  {
   "property": "C06",
   "status": "proved",
   "theorems": [
    "C06_partition",
    "C06_overflow"
   ],
   "note": ""
  },
  {
   "property": "C07",
   "status": "proved",
   "theorems": [
    "C07_dequantize_set_f32",
    "C07_dequantize_set_bf16",
    "C07_bf16_accuracy",
    "C07_complete",
    "C07_defined",
    "C07_zero_point_overflow_refuted"
   ],
   "note": "C07_complete is the full statement (every scale, zero point, reduce op, output type); C07_zero_point_overflow_refuted proves undefined behaviour for the smallest zero points."
  },
  {
   "property": "C08",
   "status": "proved",
   "theorems": [
    "C08_dequantize_add_f32",
    "C08_add_uint2_tail_refuted",
    "C08_dequantize_add_bf16",
    "C08_bf16_position_dependence_refuted"
   ],
   "note": "C08_dequantize_add_f32 states the value for every element, the overwritten uint2 tail included; C08_add_uint2_tail_refuted and C08_bf16_position_dependence_refuted prove that plain accumulation is false of the code."
  },
  {
   "property": "C09",
   "status": "proved",
   "theorems": [
    "C09_footprint",
    "C09_uint2_overread_refuted"
   ],
   "note": "C09_footprint needs one readable byte after the packed input for uint2->f32; C09_uint2_overread_refuted proves the over-read (undefined behaviour without that byte) for every length divisible by 4."
  },
  {
   "property": "C10",
   "status": "proved",
   "theorems": [
    "C10_exact_codes",
    "C10_paths_agree",
    "C10_position_dependence_refuted",
    "C10_thread_count_dependence_refuted"
   ],
   "note": "C10_exact_codes gives the code of every path on every scaled value below 2^30; the two _refuted theorems prove that the exceptional values make the result depend on position and thread count."
  },
  {
   "property": "C11",
   "status": "proved",
   "theorems": [
    "C11_monotone",
    "C11_huge_values_refuted",
    "C11_stochastic_monotone"
   ],
   "note": "C11_huge_values_refuted proves non-monotonicity at and above 2^31 on x86 vector paths."
  },
  {
   "property": "C12",
   "status": "proved",
   "theorems": [
    "C12_saturation",
    "C12_scalar_range",
    "C12_lane_range",
    "C12_any_data"
   ],
   "note": ""
  },
  {
   "property": "C13",
   "status": "proved",
   "theorems": [
    "C13_zero_quantizes_to_zero_point",
    "C13_zero_point_dequantizes_to_zero",
    "C13_zero_point_dequantizes_to_zero_bf16",
    "C13_bf16_avx512_refuted",
    "C13_zero_any_data"
   ],
   "note": "C13_bf16_avx512_refuted proves that zero points do not dequantize to 0 for uint4/uint2->bf16 on AVX-512."
  },
  {
   "property": "C14",
   "status": "proved",
   "theorems": [
    "C14_codes_round_trip",
    "C14_codes_round_trip_bf16",
    "C14_any_data"
   ],
   "note": ""
  },
  {
   "property": "C15",
   "status": "proved",
   "theorems": [
    "C15_requantize_f32",
    "C15_requantize_bf16",
    "C15_bf16_uint8_refuted",
    "C15_stochastic",
    "C15_stochastic_refuted"
   ],
   "note": "C15_bf16_uint8_refuted proves that bf16/uint8 is not idempotent for codes more than 127 from the zero point."
  },
  {
   "property": "C16",
   "status": "proved",
   "theorems": [
    "C16_round_trip_error",
    "C16_representable_range",
    "C16_every_path",
    "C16_all_types"
   ],
   "note": ""
  },
  {
   "property": "C17",
   "status": "proved",
   "theorems": [
    "C17_round_to_nearest_even",
    "C17_infinity",
    "C17_nan",
    "C17_identity"
   ],
   "note": ""
  },
  {
   "property": "C18",
   "status": "proved",
   "theorems": [
    "C18_software_conversion_agrees",
    "C18_nan_becomes_number_refuted",
    "C18_hardware_conversion"
   ],
   "note": "C18_software_conversion_agrees covers all non-NaN floats of the AVX-512F set, C18_hardware_conversion all floats of VCVTNEPS2BF16; C18_nan_becomes_number_refuted proves the NaN defect."
  },
  {
   "property": "C19",
   "status": "proved",
   "theorems": [
    "C19_bf16_input",
    "C19_stochastic_any_data",
    "C19_nearest_any_data",
    "C19_uint2_refuted"
   ],
   "note": "C19_uint2_refuted proves the exception for uint2 with nearest rounding."
  },
  {
   "property": "C20",
   "status": "proved",
   "theorems": [
    "C20_min_max",
    "C20_sse42_scans_subset",
    "C20_any_data",
    "C20_infinities",
    "C20_scalar_skips_nan",
    "C20_sse42_refuted",
    "C20_nan_refuted"
   ],
   "note": "Proved for all kernel sets but SSE4.2; for SSE4.2, C20_sse42_scans_subset proves which elements are scanned and C20_sse42_refuted that the result is wrong. C20_any_data, C20_infinities and C20_scalar_skips_nan cover infinities and NaNs; C20_nan_refuted: NaN data make the kernel sets disagree."
  },
  {
   "property": "C21",
   "status": "proved",
   "theorems": [
    "C21_sane_parameters",
    "C21_documented_parameters",
    "C21_minus_infinity",
    "C21_plus_infinity",
    "C21_all_nan",
    "C21_any_data",
    "C21_all_nan_aborts",
    "C21_scale_zero_refuted",
    "C21_infinite_data"
   ],
   "note": "C21_any_data is the complete case split for data of any content; C21_minus_infinity, C21_plus_infinity, C21_all_nan say exactly when. C21_scale_zero_refuted: subnormal ranges give scale 0."
  },
  {
   "property": "C22",
   "status": "proved",
   "theorems": [
    "C22_block_independent",
    "C22_nan_free",
    "C22_scalar_any_data",
    "C22_nan_refuted",
    "C22_sse42_refuted",
    "C22_empty_block_refuted"
   ],
   "note": "C22_nan_free and C22_scalar_any_data extend it to infinities and NaNs; C22_sse42_refuted, C22_nan_refuted and C22_empty_block_refuted prove where block independence fails."
  },
  {
   "property": "C23",
   "status": "proved",
   "theorems": [
    "C23_data_is_represented",
    "C23_zero_outside_refuted",
    "C23_all_types",
    "C23_sse42_refuted"
   ],
   "note": "C23_sse42_refuted: the SSE4.2 scan. C23_zero_outside_refuted proves that data on one side of 0 are not represented, whatever their distance from 0."
  },
  {
   "property": "C24",
   "status": "proved",
   "theorems": [
    "C24_constant",
    "C24_empty_no_block",
    "C24_empty_block",
    "C24_wrong_type_aborts",
    "C24_wrong_type_any_data"
   ],
   "note": ""
  },
  {
   "property": "C25",
   "status": "proved",
   "theorems": [
    "C25_quantize",
    "C25_dequantize",
    "C25_fused"
   ],
   "note": ""
  },
  {
   "property": "C26",
   "status": "proved",
   "theorems": [
    "C26_quantize_float_output_refuted",
    "C26_dequantize_float_input_refuted",
    "C26_bad_dtype_refuted",
    "C26_wrong_kind_aborts",
    "C26_quantize_wrap_aborts",
    "C26_dequantize_wrap_aborts",
    "C26_empty_call",
    "C26_bad_mode_refuted",
    "C26_bad_reduce_op_refuted",
    "C26_bad_target_refuted"
   ],
   "note": "The theorems with suffix _refuted prove undefined behaviour; the others prove clean aborts and harmless empty calls."
  },
  {
   "property": "C27",
   "status": "proved",
   "theorems": [
    "C27_quantize",
    "C27_dequantize",
    "C27_compute_params",
    "C27_quantize_never_aborts",
    "C27_dequantize_never_aborts",
    "C27_quantize_codes",
    "C27_dequantize_values"
   ],
   "note": ""
  },
  {
   "property": "C28",
   "status": "proved",
   "theorems": [
    "C28_fused_f32",
    "C28_fused_equals_two_calls_f32",
    "C28_fused_bf16",
    "C28_fused_equals_two_calls_bf16",
    "C28_bf16_scale_refuted",
    "C28_complete",
    "C28_stochastic_any_data"
   ],
   "note": "C28_bf16_scale_refuted: with a scale that is not a bf16 value the fused bf16 call differs from the two calls."
  },
  {
   "property": "C29",
   "status": "proved",
   "theorems": [
    "C29_quantize_stochastic",
    "C29_neighbour"
   ],
   "note": ""
  },
  {
   "property": "C30",
   "status": "proved",
   "theorems": [
    "C30_unbiased",
    "C30_multiples",
    "C30_threshold_monotone",
    "C30_draw",
    "C30_draw_one",
    "C30_generator_share",
    "C30_generator_mean",
    "C30_history",
    "C30_generator_variance"
   ],
   "note": "C30_unbiased: over the grid of 2^24 thresholds; C30_generator_*: over all 2^64 generator outputs, with std::uniform_real_distribution modelled after the standard's generate_canonical (with and without libstdc++'s cap below 1)."
  },
  {
   "property": "C31",
   "status": "proved",
   "theorems": [
    "C31_equal_inputs_equal_codes",
    "C31_any_data",
    "C31_errors_do_not_average"
   ],
   "note": ""
  },
  {
   "property": "C32",
   "status": "proved",
   "theorems": [
    "C32_detection_total",
    "C32_supported_but_bw",
    "C32_supported",
    "C32_avx512bw_refuted",
    "C32_best_supported"
   ],
   "note": "C32_avx512bw_refuted proves a feature combination for which an unsupported kernel set is installed; C32_supported adds the missing test as a hypothesis."
  },
  {
   "property": "C33",
   "status": "proved",
   "theorems": [
    "C33_kernel_tables"
   ],
   "note": ""
  },
  {
   "property": "C34",
   "status": "proved",
   "theorems": [
    "C34_quantize_uses_low_32_bits",
    "C34_quantize_low_32_bits_codes",
    "C34_f32_uint2_uses_all_bits",
    "C34_dequantize_uses_low_32_bits",
    "C34_uint2_f32_uses_all_bits",
    "C34_full_zero_point_refuted"
   ],
   "note": "C34_full_zero_point_refuted proves the claim false for the specialised kernels; the other theorems say exactly which kernels use which bits."
  },
  {
   "property": "C35",
   "status": "proved",
   "theorems": [
    "C35_zero_threads_quantize",
    "C35_zero_threads_dequantize",
    "C35_zero_threads_fused"
   ],
   "note": ""
  },
  {
   "property": "C36",
   "status": "proved",
   "theorems": [
    "C36_x86_vector",
    "C36_neon_vector",
    "C36_every_input",
    "C36_stochastic_every_input",
    "C36_fused_every_input",
    "C36_unusable_scale",
    "C36_unusable_scale_stochastic",
    "C36_unusable_scale_fused",
    "C36_infinite_scale",
    "C36_complete",
    "C36_unusable_scale_vector",
    "C36_unusable_scale_neon"
   ],
   "note": "NEON codes are stated for uint8, the only NEON vector kernels with a quantized output. Scalar-path undefined conversions make the whole call UB in the model."
  },
  {
   "property": "C37",
   "status": "proved",
   "theorems": [
    "C37_add",
    "C37_sub",
    "C37_mul",
    "C37_div",
    "C37_nan",
    "C37_infinite",
    "C37_by_zero",
    "C37_signs"
   ],
   "note": ""
  },
  {
   "property": "C38",
   "status": "proved",
   "theorems": [
    "C38_helpers",
    "C38_stride_refuted",
    "C38_piquant_to_torch_refuted",
    "C38_default_threads",
    "C38_quantize_ptr",
    "C38_dequantize_ptr",
    "C38_optimized_refuted",
    "C38_output_fits",
    "C38_torch_quantize",
    "C38_torch_dequantize",
    "C38_torch_add_uninitialised",
    "C38_empty_tensor_refuted",
    "C38_quantize_checks_dtype",
    "C38_params_float16_refuted",
    "C38_torch_params",
    "C38_torch_quantize_outcome",
    "C38_torch_quantize_codes",
    "C38_torch_dequantize_outcome",
    "C38_dequantize_output_checked",
    "C38_torch_dequantize_bf16",
    "C38_torch_params_outcome"
   ],
   "note": "PyTorch itself is an assumption of the Python model (tensor storage size of sub-byte dtypes, contiguous data), see DESIGN.md. The _refuted and _uninitialised theorems prove the defects named in the statement."
  },
  {
   "property": "C39",
   "status": "proved",
   "theorems": [
    "C39_quantized_limits",
    "C39_float_limits",
    "C39_bf16_limits_refuted",
    "C39_dtype_table",
    "C39_bytes_for",
    "C39_code_positions",
    "C39_enum_values"
   ],
   "note": "C39_bf16_limits_refuted proves that the bf16 limits are wrong."
  },
  {
   "property": "C40",
   "status": "proved",
   "theorems": [
    "C40_quantize_loops",
    "C40_dequantize_loops",
    "C40_fused_loop",
    "C40_scan_loops"
   ],
   "note": ""
  },
  {
   "property": "C41",
   "status": "proved",
   "theorems": [
    "C41_quantize_generic",
    "C41_dequantize_generic",
    "C41_fused_generic",
    "C41_one_object_per_element_refuted",
    "C41_quantize_codes",
    "C41_dequantize_values"
   ],
   "note": "C41_one_object_per_element_refuted proves that one uint4_t/uint2_t object per element aborts."
  },
  {
   "property": "C42",
   "status": "proved",
   "theorems": [
    "C42_equality",
    "C42_zeros_refuted",
    "C42_nan_refuted",
    "C42_only_zeros_differ"
   ],
   "note": "C42_zeros_refuted and C42_nan_refuted prove the two differences from IEEE equality."
  },
  {
   "property": "C43",
   "status": "proved",
   "theorems": [
    "C43_isolation",
    "C43_concurrent_calls",
    "C43_documented_results"
   ],
   "note": "The thread pool is an oracle that runs every scheduled job exactly once, in any interleaving."
  },
  {
   "property": "C44",
   "status": "proved",
   "theorems": [
    "C44_one_result",
    "C44_program",
    "C44_quantize_then_dequantize"
   ],
   "note": "Rounds are separated by the return of the calls; the thresholds of stochastic calls are arguments of the requests."
  },
  {
   "property": "C45",
   "status": "proved",
   "theorems": [
    "C45_outputs_64_bit",
    "C45_never_constant",
    "C45_threshold_not_stuck",
    "C45_uniform_seed_refuted",
    "C45_standard_check_value",
    "C45_matches_standard",
    "C45_standard_unique"
   ],
   "note": "C45_standard_check_value compares the model of the generator with the check value of the C++ standard (10000th output of the default-seeded engine); C45_uniform_seed_refuted proves that 32-bit seeding is not uniform."
  },
  {
   "property": "C46",
   "status": "proved",
   "theorems": [
    "C46_set_unaffected",
    "C46_fused_set_unaffected",
    "C46_uncontracted",
    "C46_add_f32",
    "C46_uniform_contraction_deterministic",
    "C46_accuracy",
    "C46_add_bf16",
    "C46_fused_add_f32",
    "C46_fused_equals_two_calls",
    "C46_mixed_contraction_refuted"
   ],
   "note": "C46_mixed_contraction_refuted proves the thread-count dependence when only one kind of loop is contracted. Contraction of products that are also compared or truncated (quantization kernels) is not modelled: GCC fuses only products all of whose uses are additions."
  },
  {
   "property": "C47",
   "status": "proved",
   "theorems": [
    "C47_quantize_chunks",
    "C47_dequantize_chunks_f32",
    "C47_dequantize_chunks_bf16",
    "C47_fused_chunks_f32",
    "C47_bf16_avx512_refuted",
    "C47_quantize_any_data",
    "C47_fused_any_data"
   ],
   "note": ""
  },
  {
   "property": "C48",
   "status": "proved",
   "theorems": [
    "C48_dequantize_order",
    "C48_negative_scale",
    "C48_bf16_order",
    "C48_bf16_uint8_strict_refuted"
   ],
   "note": "C48_bf16_uint8_strict_refuted proves that strictness fails for uint8 to bf16."
  },
  {
   "property": "C49",
   "status": "proved",
   "theorems": [
    "C49_negation",
    "C49_power_of_two"
   ],
   "note": ""
  },
  {
   "property": "C50",
   "status": "proved",
   "theorems": [
    "C50_range_only",
    "C50_same_elements",
    "C50_wider_data"
   ],
   "note": ""
  },
  {
   "property": "C51",
   "status": "proved",
   "theorems": [
    "C51_quantize_draining",
    "C51_dequantize_any_signal",
    "C51_fused_any_signal",
    "C51_plain_unstreamed",
    "C51_plain_late_bytes",
    "C51_plain_signal_refuted",
    "C51_caller_finds_codes"
   ],
   "note": "C51_plain_signal_refuted proves that a plain-store completion flag would not be enough for the uint8 vector kernels; which signal the pool uses is not in /repo (empty submodule)."
  },
  {
   "property": "C52",
   "status": "proved",
   "theorems": [
    "C52_near_zero",
    "C52_readme_f32",
    "C52_readme_bf16",
    "C52_bf16_tolerance_refuted",
    "C52_half_even_reference",
    "C52_half_even_differs"
   ],
   "note": "C52_bf16_tolerance_refuted: the tolerance printed in the README/tests is not guaranteed for bf16 output; C52_readme_bf16 gives a tolerance that is. C52_half_even_differs: a tie rounds away from zero, torch's reference to even."
  },
  {
   "property": "C53",
   "status": "proved",
   "theorems": [
    "C53_reference_random",
    "C53_nearest_equals_reference",
    "C53_stochastic_near_reference",
    "C53_reference_uint2_overflow",
    "C53_reference_bf16_stochastic_differs"
   ],
   "note": "C53_reference_uint2_overflow and C53_reference_bf16_stochastic_differs are limits of the reference in test/naive.hpp, not of the library."
  },
  {
   "property": "C54",
   "status": "proved",
   "theorems": [
    "C54_constant_round_trip",
    "C54_constant_all_types"
   ],
   "note": "C54_constant_all_types is the full statement for both outputs and both rounding modes; C54_constant_round_trip adds the error bound and the clipping for nearest rounding to f32."
  },
  {
   "property": "C55",
   "status": "proved",
   "theorems": [
    "C55_accumulated_bits",
    "C55_accumulated_error",
    "C55_exact_sum",
    "C55_exact_sum_any_order",
    "C55_all_reduce_error",
    "C55_computed_parameters_fit",
    "C55_all_reduce_bf16",
    "C55_computed_parameters_fit_bf16"
   ],
   "note": "f32 and bf16 accumulators."
  },
  {
   "property": "C56",
   "status": "proved",
   "theorems": [
    "C56_fused_accuracy",
    "C56_accumulate_accuracy",
    "C56_requant_test",
    "C56_dequant_test",
    "C56_range_test"
   ],
   "note": "SSE4.2 parameter scan excepted (C23); uint2 tail with add excepted in (2) (C08)."
  },
  {
   "property": "C57",
   "status": "proved",
   "theorems": [
    "C57_torch_round_trip",
    "C57_quint2x4_float32_refuted"
   ],
   "note": "C57_quint2x4_float32_refuted proves the out-of-bounds read for quint2x4 tensors whose last dimension is a multiple of 4; C57_torch_round_trip asks for a longer storage in that case."
  },
  {
   "property": "C58",
   "status": "proved",
   "theorems": [
    "C58_view_elements",
    "C58_positions",
    "C58_quantize_view",
    "C58_dequantize_view",
    "C58_workflow_view",
    "C58_params_view"
   ],
   "note": "Strided views of quint2x4/quint4x2 tensors do not exist in PyTorch and are not covered."
  },
  {
   "property": "C59",
   "status": "proved",
   "theorems": [
    "C59_fused_in_place",
    "C59_quantize_one_thread",
    "C59_fused_one_thread",
    "C59_documented_results",
    "C59_two_threads_refuted",
    "C59_dequantize_in_place_refuted",
    "C59_fused_above_refuted"
   ],
   "note": "At the level of loop iterations; the kernels declare their pointers restrict, which entitles a compiler to assume no overlap. The _refuted theorems show what does not work."
  },
  {
   "property": "C60",
   "status": "proved",
   "theorems": [
    "C60_python_lifetime",
    "C60_no_use_after_free",
    "C60_destroyed_only_when_gone",
    "C60_accounted",
    "C60_destroyed_exactly_once",
    "C60_exit_finishes",
    "C60_get_singleton",
    "C60_use_after_exit_refuted",
    "C60_destroy_during_call_refuted",
    "C60_get_race_refuted",
    "C60_interrupt_leak_refuted"
   ],
   "note": "C60_use_after_exit_refuted, C60_destroy_during_call_refuted, C60_get_race_refuted and C60_interrupt_leak_refuted prove the limits stated. Two threads inside __init__ of the same object at once are not modelled."
  },
  {
   "property": "C61",
   "status": "proved",
   "theorems": [
    "C61_round_trip_is_stable",
    "C61_one_trip",
    "C61_repeated_trips",
    "C61_trip_completes",
    "C61_workflow",
    "C61_symmetric_refuted",
    "C61_trips_possible",
    "C61_float_trip",
    "C61_float_trip_completes",
    "C61_float_trips",
    "C61_float_trips_possible",
    "C61_float_workflow",
    "C61_bf16_uint8_refuted"
   ],
   "note": "SSE4.2 parameter scan excepted (C23). C61_symmetric_refuted proves that the condition on the position of zero cannot be dropped; C61_trips_possible, C61_float_trips_possible: the chains quantified over exist. Through bf16 (C61_float_*): uint2 and uint4 only, up to 1000 trips; C61_bf16_uint8_refuted: uint8 codes do move through bf16."
  },
  {
   "property": "C62",
   "status": "proved",
   "theorems": [
    "C62_units_parameters",
    "C62_units_codes",
    "C62_units_decoded",
    "C62_negation_parameters",
    "C62_negation_codes",
    "C62_negation_decoded",
    "C62_negation_refuted",
    "C62_units_decoded_bf16",
    "C62_negation_decoded_bf16",
    "C62_bf16_avx512_refuted"
   ],
   "note": "C62_negation_refuted proves that the condition on the position of zero cannot be dropped for negation. C62_*_bf16: the same for bf16 output; C62_bf16_avx512_refuted: not with the AVX-512 uint4 kernels."
  },
  {
   "property": "C63",
   "status": "proved",
   "theorems": [
    "C63_ieee_calls",
    "C63_quantize",
    "C63_dequantize",
    "C63_fused",
    "C63_parameters",
    "C63_workflow",
    "C63_accumulator_refuted",
    "C63_scale_refuted",
    "C63_threshold_refuted",
    "C63_denormal_data_refuted"
   ],
   "note": "Set mode only; C63_accumulator_refuted, C63_scale_refuted, C63_threshold_refuted and C63_denormal_data_refuted prove that the restrictions cannot be dropped."
  },
  {
   "property": "C64",
   "status": "proved",
   "theorems": [
    "C64_numbers",
    "C64_panic",
    "C64_panic_complete",
    "C64_panic_overrun_refuted",
    "C64_reports",
    "C64_quantize_message",
    "C64_dequantize_message",
    "C64_dequantize_names_refuted",
    "C64_dequantize_names2_refuted",
    "C64_fused_message",
    "C64_target_message",
    "C64_bit_size_conversion_refuted",
    "C64_null_kernel_message_refuted",
    "C64_null_kernel_unreachable",
    "C64_long_path_refuted"
   ],
   "note": "C64_dequantize_names_refuted, C64_dequantize_names2_refuted, C64_panic_overrun_refuted, C64_long_path_refuted, C64_bit_size_conversion_refuted and C64_null_kernel_message_refuted prove what does not hold; the message theorems take %u to read the low 32 bits of a size_t (LP64)."
  },
  {
   "property": "C65",
   "status": "proved",
   "theorems": [
    "C65_lower_bound",
    "C65_bound_attained",
    "C65_near_optimal",
    "C65_zero_outside_refuted"
   ],
   "note": "C65_zero_outside_refuted proves that no factor bounds the loss when zero is outside the range. f32 tensors, nearest rounding."
  },
  {
   "property": "C66",
   "status": "proved",
   "theorems": [
    "C66_one_event",
    "C66_replicas_agree",
    "C66_runs_exist",
    "C66_bf16_avx512_refuted",
    "C66_bf16_threads_refuted"
   ],
   "note": "C66_bf16_avx512_refuted and C66_bf16_threads_refuted prove that the conditions on bf16 peers with AVX-512 are needed; C66_runs_exist: the runs quantified over exist on every CPU considered."
  },
  {
   "property": "C67",
   "status": "proved",
   "theorems": [
    "C67_ranking",
    "C67_extremes",
    "C67_fused_ranking",
    "C67_bf16_avx512_refuted"
   ],
   "note": "C67_bf16_avx512_refuted proves that uint2/uint4 to bf16 on AVX-512 can violate the order. Position-dependent scaled values (C10) are excluded for nearest rounding on x86; C67_fused_ranking has no such exception."
  },
  {
   "property": "C68",
   "status": "proved",
   "theorems": [
    "C68_aggregates",
    "C68_calibrated",
    "C68_sum_error_attained"
   ],
   "note": "uniform_error spells the bounds out for f32 output. C68_sum_error_attained shows that the factor n cannot be dropped."
  },
  {
   "property": "C69",
   "status": "proved",
   "theorems": [
    "C69_kernels_can_run",
    "C69_api_can_run",
    "C69_no_missing",
    "C69_any_order",
    "C69_own_kernels",
    "C69_last_copy_refuted",
    "C69_archive_order_refuted",
    "C69_inline_tables_refuted",
    "C69_load_time_refuted"
   ],
   "note": "The four _refuted theorems prove that the condition on the order is needed (last copy, static archive), that inline tables must not be read at run time, and that load-time initializers are not protected. bw_with_avx512f is the hypothesis C32 needs. Calls out of the library are not followed."
  },
  {
   "property": "C70",
   "status": "proved",
   "theorems": [
    "C70_ring_error",
    "C70_planned_ring",
    "C70_computed_ring"
   ],
   "note": "C70_ring_error: parameters cover each running sum; C70_planned_ring: ranges fixed in advance; C70_computed_ring: parameters computed by the library at every hop."
  },
  {
   "property": "C71",
   "status": "proved",
   "theorems": [
    "C71_transcode",
    "C71_move_zero",
    "C71_widen",
    "C71_narrow"
   ],
   "note": "C71_transcode: integer arithmetic on codes; C71_move_zero, C71_widen, C71_narrow: its three uses."
  },
  {
   "property": "C72",
   "status": "proved",
   "theorems": [
    "C72_clipped",
    "C72_calibrated"
   ],
   "note": "C72_clipped: any finite data; C72_calibrated: parameters computed from other data."
  },
  {
   "property": "C73",
   "status": "proved",
   "theorems": [
    "C73_smaller_step",
    "C73_block_error",
    "C73_constant_block_refuted",
    "C73_far_block_refuted",
    "C73_block_sizes"
   ],
   "note": "C73_smaller_step and C73_block_error: the claim; C73_block_sizes: the buffer; C73_constant_block_refuted and C73_far_block_refuted: blocks for which it fails."
  },
  {
   "property": "C74",
   "status": "proved",
   "theorems": [
    "C74_integer_sum",
    "C74_integer_dot",
    "C74_accumulator"
   ],
   "note": "C74_integer_dot: dot products; C74_integer_sum: sums; C74_accumulator: size and zero-point corrections."
  },
  {
   "property": "C75",
   "status": "proved",
   "theorems": [
    "C75_planned_feedback",
    "C75_computed_feedback",
    "C75_without_feedback"
   ],
   "note": "C75_planned_feedback: parameters chosen in advance; C75_computed_feedback: computed in every round; C75_without_feedback: the counterexample without feedback. f32 data."
  },
  {
   "property": "C76",
   "status": "proved",
   "theorems": [
    "C76_any_order",
    "C76_exact_any_order",
    "C76_order_refuted"
   ],
   "note": "C76_any_order: rounding bound; C76_exact_any_order: equal when nothing rounds; C76_order_refuted: bits depend on the order in general."
  },
  {
   "property": "C77",
   "status": "proved",
   "theorems": [
    "C77_independent_senders",
    "C77_average",
    "C77_equal_seeds_refuted",
    "C77_received",
    "C77_rarely_far",
    "C77_concentration",
    "C77_average_concentration",
    "C77_equal_seeds_always_off",
    "C77_received_concentration",
    "C77_received_every_element",
    "C77_received_equal_seeds"
   ],
   "note": "C77_independent_senders, C77_average: all combinations of generator outputs equally likely; C77_equal_seeds_refuted, C77_equal_seeds_always_off: no gain with equal outputs. C77_received: the receiver's own f32 sum, all senders' types, CPUs and thread counts, any starting value within range. C77_concentration, C77_average_concentration, C77_rarely_far: share of combinations with a large error. C77_received_concentration: the same for the receiver's f32 value. C77_received_every_element: all elements together. C77_received_equal_seeds: always off with equal outputs."
  },
  {
   "property": "C78",
   "status": "proved",
   "theorems": [
    "C78_stochastic_ring",
    "C78_rarely_far",
    "C78_concentration",
    "C78_tensor_error",
    "C78_every_element"
   ],
   "note": "C78_stochastic_ring: one element, unclipped at every point of the ring; senders and parameters may depend on the history. C78_concentration, C78_rarely_far: share of combinations with a large error. C78_tensor_error, C78_every_element: all elements of a tensor."
  }
 ]
}