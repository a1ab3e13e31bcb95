{
 "claims": [
  {
   "property": "C01",
   "status": "partial",
   "theorems": [
    "C01_gang_matches_serial_instances_partial",
    "C01_store_after_continue_refuted"
   ],
   "note": "Proved for every program that passes the static check prog_ok (SpmdSpec.v), every width, mask, cost function and state. Missing: programs that fail the check; C01_store_after_continue_refuted shows that the claim is false for one such construct (finding x). The language has one 32-bit type, no pointers, no goto."
  },
  {
   "property": "C02",
   "status": "partial",
   "theorems": [
    "C02_inactive_instances_untouched_partial",
    "C02_global_store_refuted"
   ],
   "note": "Proved for programs that pass prog_ok; refuted for stores to non-static file-scope varying variables at the top level of a function (finding y)."
  },
  {
   "property": "C03",
   "status": "partial",
   "theorems": [
    "C03_gang_terminates_then_instances_do_partial",
    "C03_instances_terminate_then_gang_does_partial",
    "C03_masked_return_in_uniform_loop_refuted",
    "C03_predicated_uniform_loop_refuted"
   ],
   "note": "gang terminates => instances do, for prog_ok programs; the converse for programs that also pass SpmdGuard.guarded_call. Missing: the converse for programs rejected by the check, two of which are shown not to terminate."
  },
  {
   "property": "C04",
   "status": "partial",
   "theorems": [
    "C04_coherent_same_results_partial",
    "C04_coherent_terminates_partial",
    "C04_termination_refuted"
   ],
   "note": "C04_coherent_same_results_partial: both runs finish. C04_coherent_terminates_partial: if one run finishes, the other does if its program passes the check of SpmdGuard (no uniform loop that could run with all lanes off). C04_termination_refuted: without the check, cif finishes where if never does. Programs pass prog_ok."
  },
  {
   "property": "C05",
   "status": "partial",
   "theorems": [
    "C05_mask_after_statement_partial"
   ],
   "note": "For every statement at every point of a checked function."
  },
  {
   "property": "C06",
   "status": "proved",
   "theorems": [
    "C06_foreach_visits_range_in_order",
    "C06_foreach_empty_range"
   ],
   "note": ""
  },
  {
   "property": "C07",
   "status": "partial",
   "theorems": [
    "C07_foreach_covers_box",
    "C07_foreach_tiled_covers_box",
    "C07_box_points",
    "C07_executions_have_an_active_instance_partial",
    "C07_execution_without_active_instance_refuted"
   ],
   "note": "Coverage of the box is proved in full for foreach and foreach_tiled; the claim that the body never runs with every instance off is refuted by a witness (reversed innermost range with a ragged outer dimension) and proved otherwise."
  },
  {
   "property": "C08",
   "status": "partial",
   "theorems": [
    "C08_defined_exactly_without_index_overflow_partial",
    "C08_near_int32_max_refuted",
    "C08_wide_range_refuted"
   ],
   "note": "The documented loop has no such limit; the emitted code computes counts and counters with no-signed-wrap arithmetic. Proved: the loop is undefined exactly when such an overflow occurs, and is the exact integer loop otherwise. Two witnesses show ranges inside int32 for which it is undefined."
  },
  {
   "property": "C09",
   "status": "partial",
   "theorems": [
    "C09_foreach_active_serialises",
    "C09_no_active_instance_refuted"
   ],
   "note": "Proved whenever an instance is active; reached with none (possible by C13's witnesses) the emitted code shifts by 64 and is undefined."
  },
  {
   "property": "C10",
   "status": "partial",
   "theorems": [
    "C10_foreach_unique_partitions",
    "C10_foreach_unique_float_partial",
    "C10_foreach_unique_nan_refuted"
   ],
   "note": "Proved for integer and pointer values and for floating point without NaN; with a NaN the emitted loop never ends (witness theorem)."
  },
  {
   "property": "C11",
   "status": "partial",
   "theorems": [
    "C11_varying_switch_is_c_switch_partial",
    "C11_switch_anywhere_partial"
   ],
   "note": "C11_varying_switch_is_c_switch_partial: functions that start with a varying switch. C11_switch_anywhere_partial: a varying switch at any point of a checked function, nested in other constructs too. Programs pass prog_ok."
  },
  {
   "property": "C12",
   "status": "partial",
   "theorems": [
    "C12_break_affects_only_executing_lanes_partial",
    "C12_break_after_continue_refuted"
   ],
   "note": "Instance of C01 for functions that start with a varying loop; refuted for an unconditional break in a loop with a masked continue (finding a)."
  },
  {
   "property": "C13",
   "status": "partial",
   "theorems": [
    "C13_effects_have_an_active_instance_partial",
    "C13_effect_with_all_lanes_off_refuted",
    "C13_switch_label_check_refuted",
    "C13_for_step_after_break_refuted",
    "C13_code_after_nested_break_refuted"
   ],
   "note": "every effect has an active instance, for programs that pass SpmdGuard.guarded_call; four programs that break the claim. Missing: predication of expressions is in C14; programs rejected by the check."
  },
  {
   "property": "C14",
   "status": "partial",
   "theorems": [
    "C14_operators_as_in_c_partial",
    "C14_operators_as_in_c_nsw_partial",
    "C14_assigning_operands_partial",
    "C14_safe_with_all_lanes_off",
    "C14_side_effect_of_skipped_operand_refuted",
    "C14_assignment_in_arm_hits_all_lanes_refuted",
    "C14_division_assignment_in_arm_refuted"
   ],
   "note": "With --wrap-signed-int, for every expression of the model (arithmetic, comparison, ++, =, /=, /, array reads, calls, &&, ||, ?:), every mask with a running lane and every state, the gang evaluation is defined when C's per-instance evaluation is, and agrees with it on values, variables and calls; lanes that are off keep outer variables and calls. Default nsw arithmetic: proved for expressions without + and ++. Refuted by witness: i++ in an operand the compiler does not short-circuit; an assignment in an arm to a variable of the same control flow depth (stored to all lanes); x /= y in an arm no lane takes. Not modelled: other types, short vectors, pointers."
  },
  {
   "property": "C15",
   "status": "partial",
   "theorems": [
    "C15_any",
    "C15_all",
    "C15_none",
    "C15_popcnt_bool",
    "C15_lanemask",
    "C15_packmask",
    "C15_reduce_add_signed",
    "C15_reduce_add_unsigned",
    "C15_reduce_min_signed",
    "C15_reduce_min_unsigned",
    "C15_reduce_max_signed",
    "C15_reduce_max_unsigned",
    "C15_reduce_min_float_partial",
    "C15_reduce_max_float_partial",
    "C15_reduce_min_all_nan_refuted",
    "C15_reduce_add_float",
    "C15_reduce_equal",
    "C15_reduce_equal_m4",
    "C15_reduce_equal_none_running_refuted",
    "C15_reduce_equal_novalue_refuted",
    "C15_reduce_equal_novalue_partial"
   ],
   "note": "Integer, bool and float reductions over the running instances for any gang size up to 64; float min/max proved when some running instance holds a number (all-NaN case refuted), reduce_equal both implementations; refuted: reduce_equal with nobody running, one-argument reduce_equal overruns its temporary."
  },
  {
   "property": "C16",
   "status": "proved",
   "theorems": [
    "C16_exclusive_scan_add",
    "C16_exclusive_scan_and",
    "C16_exclusive_scan_or",
    "C16_exclusive_scan_add_float",
    "C16_m4_scans_agree"
   ],
   "note": ""
  },
  {
   "property": "C17",
   "status": "partial",
   "theorems": [
    "C17_broadcast",
    "C17_rotate_memory",
    "C17_rotate_constant",
    "C17_rotate_via_shuffle",
    "C17_shift_via_shuffle",
    "C17_shift_memory_partial",
    "C17_shift_memory_out_of_bounds_refuted",
    "C17_shuffle",
    "C17_shuffle2",
    "C17_x86_shuffle_partial",
    "C17_x86_shuffle_running",
    "C17_x86_shuffle2_partial",
    "C17_x86_shuffle2_running",
    "C17_x86_shuffle_fault",
    "C17_x86_shuffle2_fault",
    "C17_x86_off_lane_refuted",
    "C17_x86_off_lane2_refuted"
   ],
   "note": "rotate (3 implementations), shuffle, shuffle2, broadcast complete; shift via shuffle complete; shift via memory only for |offset| <= gang size, refuted beyond (out of bounds read). The shuffles of twelve x86 targets by permutation instructions (avx1/avx2 x4-x16, avx512 x4-x64) are right for indices in range; those through memory read out of bounds for the index of a lane that is off (refuted)."
  },
  {
   "property": "C18",
   "status": "partial",
   "theorems": [
    "C18_packed_store_active",
    "C18_packed_store_active2",
    "C18_packed_load_active",
    "C18_store_then_load",
    "C18_store_with_lanes_ignores_mask_refuted",
    "C18_store_with_lanes_partial",
    "C18_avx2_store_i32",
    "C18_avx2_store_i64",
    "C18_avx2_store_agrees"
   ],
   "note": "store/load/store2 complete, also packed_store_active2 of the avx2-i32x8 target by bit deposit and extract; refuted: the overload taking an explicit active argument ignores the execution mask."
  },
  {
   "property": "C19",
   "status": "partial",
   "theorems": [
    "C19_atomic_add",
    "C19_atomic_or",
    "C19_atomic_xor",
    "C19_atomic_and_m4",
    "C19_atomic_swap",
    "C19_atomic_swap_none_running_refuted",
    "C19_varying_pointer",
    "C19_compare_exchange_varying_pointer",
    "C19_compare_exchange_m4",
    "C19_float_op_m4",
    "C19_atomic_min_memory_partial",
    "C19_atomic_max_memory_partial",
    "C19_atomic_min_unsigned_memory_partial",
    "C19_atomic_max_unsigned_memory_partial",
    "C19_atomic_subtract_refuted",
    "C19_atomic_subtract_result_refuted",
    "C19_atomic_and_generic_refuted",
    "C19_compare_exchange_generic_refuted",
    "C19_atomic_min_results_refuted"
   ],
   "note": "add, or, xor (both implementations), and (m4), swap, varying pointers, compare-exchange (m4, varying pointers) and floating-point operations equal some serial order interleaved with arbitrary actions of other threads; refuted: subtract (all versions), and (generic), compare-exchange (generic: inactive instances exchange too), results of min/max, swap with nobody running. min/max memory effect proved (partial)."
  },
  {
   "property": "C20",
   "status": "partial",
   "theorems": [
    "C20_atomic_local",
    "C20_compare_exchange_local",
    "C20_integer_operations",
    "C20_float_operations",
    "C20_swap_local_double_refuted"
   ],
   "note": "All local atomics in instance order, for at least one running instance; refuted: atomic_swap_local(double) stores old - new."
  },
  {
   "property": "C21",
   "status": "partial",
   "theorems": [
    "C21_saturating_add_signed",
    "C21_saturating_add_unsigned",
    "C21_saturating_sub_signed",
    "C21_saturating_sub_unsigned",
    "C21_saturating_div_signed",
    "C21_saturating_div_unsigned",
    "C21_saturating_mul_signed",
    "C21_saturating_mul_unsigned",
    "C21_saturating_mul_int64",
    "C21_saturating_mul_uint64_partial",
    "C21_saturating_mul_uint64_refuted",
    "C21_novec_signed",
    "C21_novec_unsigned"
   ],
   "note": "All add/sub/div/mul proved for every width and all operands, except saturating_mul(uint64), which does not saturate to the maximum in every overflowing case (refuted with witness; exact when the product fits, see partial theorem)."
  },
  {
   "property": "C22",
   "status": "partial",
   "theorems": [
    "C22_avg_unsigned",
    "C22_avg_signed_generic",
    "C22_avg_signed_m4_partial",
    "C22_avg_signed_m4_refuted"
   ],
   "note": "Unsigned averages and the generic-target signed averages proved; the m4 targets' signed averages round toward zero (refuted with witness, the value they do compute is the partial theorem)."
  },
  {
   "property": "C23",
   "status": "proved",
   "theorems": [
    "C23_half_to_float_exact",
    "C23_half_to_float_special",
    "C23_float_to_half_nearest",
    "C23_float_to_half_overflow",
    "C23_float_to_half_nan",
    "C23_round_trip",
    "C23_uniform_varying_agree",
    "C23_fast"
   ],
   "note": "Software half/float conversions (the branches used when the target has no native converts), all bit patterns; native converts are LLVM intrinsics and out of the model."
  },
  {
   "property": "C24",
   "status": "proved",
   "theorems": [
    "C24_memmove",
    "C24_memcpy",
    "C24_memset",
    "C24_memmove_varying",
    "C24_memcpy_varying",
    "C24_memset_varying",
    "C24_separate_lanes"
   ],
   "note": "The byte loops of the Xe branch are proved, uniform and varying, 32 and 64 bit; the other branch is one call of an LLVM memory intrinsic. Varying versions need at least one running lane (see C09)."
  },
  {
   "property": "C25",
   "status": "partial",
   "theorems": [
    "C25_masked_division",
    "C25_constant_divisor",
    "C25_constant_minus_one_refuted",
    "C25_all_lanes_off_refuted"
   ],
   "note": "Proved for non-Xe targets with at least one running lane and for constant divisors other than 0/-1. Refuted: constant divisor -1 divides INT_MIN in lanes that are off; with no running lane the loop over active lanes is undefined."
  },
  {
   "property": "C26",
   "status": "proved",
   "theorems": [
    "C26_aos_to_soa",
    "C26_soa_to_aos",
    "C26_soa_aos_soa",
    "C26_aos_soa_aos"
   ],
   "note": ""
  },
  {
   "property": "C27",
   "status": "partial",
   "theorems": [
    "C27_dot4add_u8i8packed",
    "C27_dot4add_u8i8packed_sat",
    "C27_dot4add_u8u8packed_sat",
    "C27_dot4add_i8i8packed",
    "C27_dot2add_i16i16packed",
    "C27_dot2add_u16u16packed",
    "C27_dot2add_u16i16packed",
    "C27_dot2add_u16u16packed_sat",
    "C27_dot2add_i16i16packed_sat_partial",
    "C27_dot2add_u16i16packed_sat_partial",
    "C27_dot4add_u8u8packed_partial",
    "C27_dot4add_i8i8packed_sat_partial",
    "C27_dot4add_u8u8packed_refuted",
    "C27_dot4add_i8i8packed_sat_refuted",
    "C27_dot2add_i16i16packed_sat_refuted",
    "C27_dot2add_u16i16packed_sat_refuted"
   ],
   "note": "8 of 12 fallbacks proved exact; dot4add_u8u8packed, dot4add_i8i8packed_sat, dot2add_i16i16packed_sat, dot2add_u16i16packed_sat deviate from the documented value (refuted with witnesses, partial theorems give the operand ranges where they are right)."
  },
  {
   "property": "C28",
   "status": "proved",
   "theorems": [
    "C28_float_to_srgb8_defined",
    "C28_float_to_srgb8_monotone",
    "C28_float_to_srgb8_ends",
    "C28_srgb8_to_float_increasing",
    "C28_srgb8_to_float_clamps",
    "C28_round_trip"
   ],
   "note": "float_to_srgb8 for every float; srgb8_to_float for every int with both roundings of a*b+c."
  },
  {
   "property": "C29",
   "status": "partial",
   "theorems": [
    "C29_frandom_range",
    "C29_frandom_state",
    "C29_nondegenerate_forever",
    "C29_good_seeds",
    "C29_seed_refuted"
   ],
   "note": "Refuted for small seeds (seed 0 leaves the first component stuck at 0); proved for all seeds with a non-zero low half-word outside 8 values."
  },
  {
   "property": "C30",
   "status": "proved",
   "theorems": [
    "C30_leading_zeros_uniform",
    "C30_leading_zeros_varying",
    "C30_leading_zeros_vector",
    "C30_trailing_zeros",
    "C30_popcnt_varying",
    "C30_popcnt_bool"
   ],
   "note": "llvm.ctlz/cttz/ctpop are modelled by their definition; the lane loops, masking and conversions around them are ispc's."
  },
  {
   "property": "C31",
   "status": "partial",
   "theorems": [
    "C31_integer_operators_agree",
    "C31_integer_operators_fold_partial",
    "C31_negation_agrees",
    "C31_complement_agrees",
    "C31_integer_conversions_agree",
    "C31_bool_operators_agree",
    "C31_bool_operators_folded",
    "C31_logical_operators_agree",
    "C31_bool_conversions_agree",
    "C31_bool_to_float_agrees",
    "C31_select_agrees",
    "C31_float_comparisons_agree",
    "C31_float_to_bool_agrees",
    "C31_float_to_integer_agrees",
    "C31_integer_to_float_agrees_partial",
    "C31_int64_to_float_rounded_twice_refuted",
    "C31_division_overflow_stops_compiler_refuted",
    "C31_division_by_zero_not_folded",
    "C31_folding_undefined_in_compiler_refuted",
    "C31_negate_varying_uint16_refuted"
   ],
   "note": "Integer, bool, select, comparison and conversion folding agree with the emitted instructions; refuted corners: int64 to float rounded twice, INT_MIN/-1 traps in the compiler, host UB, varying uint16 negation asserts. Folding of floating-point + - * / is by the same IEEE operations and not modelled separately."
  },
  {
   "property": "C32",
   "status": "partial",
   "theorems": [
    "C32_common_type_symmetric_partial",
    "C32_varying_if_an_operand_is_partial",
    "C32_documented_precedence_partial",
    "C32_float16_precedence_refuted",
    "C32_enum_narrowed_refuted",
    "C32_pointers_not_symmetric_refuted"
   ],
   "note": "Atomic, enum and short-vector operands: symmetric, varying iff an operand is, documented precedence. Missing because false: float16 beside a 32-bit integer, enum beside a small integer, pointers to const (refuted with witnesses)."
  },
  {
   "property": "C33",
   "status": "partial",
   "theorems": [
    "C33_same_symbol_partial",
    "C33_overloads_have_different_symbols_partial",
    "C33_template_instances_partial",
    "C33_template_is_not_function",
    "C33_function_pointer_result_refuted",
    "C33_constant_pointer_refuted",
    "C33_unnamed_enums_refuted",
    "C33_struct_name_refuted",
    "C33_function_named_like_instance_refuted"
   ],
   "note": "Mangling is decodable: equal symbols give equal kinds, template arguments and parameters up to what the symbol leaves out; exact for ordinary parameter types. Missing because false: result types of function pointers, const pointers, unnamed enums, names containing _5D_, functions named like template instances (all refuted with witnesses)."
  },
  {
   "property": "C34",
   "status": "partial",
   "theorems": [
    "C34_declaration_order_does_not_matter",
    "C34_chosen_is_cheapest",
    "C34_resolution_partial",
    "C34_documented_order_partial",
    "C34_atomic_conversions",
    "C34_lossless_integers_widen",
    "C34_widening_loses_values_refuted",
    "C34_exact_function_ambiguous_refuted",
    "C34_reference_order_refuted",
    "C34_many_arguments_refuted"
   ],
   "note": "Independent of declaration order for any costs; the chosen function is cheapest; without templates and up to 103 arguments the three outcomes are characterised exactly; documented order for atomic types. Missing because false: exact function beside two templates, references against const, widening that loses values, 104 arguments (refuted)."
  },
  {
   "property": "C35",
   "status": "partial",
   "theorems": [
    "C35_values_partial",
    "C35_block_partial",
    "C35_reads_between",
    "C35_no_new_faults",
    "C35_loads",
    "C35_wide_refuted",
    "C35_negative_refuted",
    "C35_unaligned_refuted",
    "C35_overflow_refuted",
    "C35_poison_refuted",
    "C35_barrier_refuted",
    "C35_alignment_refuted"
   ],
   "note": "Proved: selection of loads, their values, assembly of the vectors, grouping within a basic block, absence of new page faults. Partial: the values theorem needs offsets that are multiples of four and not negative in 32-bit gathers, no 32-bit overflow of the scaled offset, width 4/8/16 (32/64 only for single gathers), no memory barrier between the gathers, and (for LLVM's poison) no pair insertion into a half-done vector; each of these is shown necessary by a _refuted theorem."
  },
  {
   "property": "C36",
   "status": "partial",
   "theorems": [
    "C36_select_partial",
    "C36_store_partial",
    "C36_load_partial",
    "C36_blend_partial",
    "C36_movmsk",
    "C36_no_crash",
    "C36_prefix_store_partial",
    "C36_prefix_load_partial",
    "C36_wide_select_refuted",
    "C36_crash_refuted",
    "C36_avx_load_refuted",
    "C36_undef_prefix_refuted",
    "C36_prefix_load3_refuted"
   ],
   "note": "Proved for masks of at most the target's width (select, blend, masked load/store with a known mask, movmsk) and for masks of booleans whose first elements are on (plain store/load of the first part). Partial: the _refuted theorems show selects wider than the target judged by their first lanes, an assertion with more than 64 elements, AVX masked loads with all lanes off turned into poison instead of zero, undef elements skipped in a prefix mask, and lane 3 getting the wrong pass-through value for three-element prefixes."
  },
  {
   "property": "C37",
   "status": "partial",
   "theorems": [
    "C37_same_address_partial",
    "C37_same_address_32_partial",
    "C37_more_const_partial",
    "C37_no_new_poison_partial",
    "C37_wrapped_index_refuted",
    "C37_regrouped_refuted",
    "C37_poison_refuted",
    "C37_factor_refuted",
    "C37_unsigned_32_refuted",
    "C37_sum_32_refuted",
    "C37_constant_32_refuted"
   ],
   "note": "Proved: the address computed from base, scale, varying and constant offsets is the pointer, with 64-bit offsets and (when both offsets fit an int) with 32-bit addressing, and moving further constants keeps it, under room: sums and products that are widened do not leave the narrow type however grouped. Missing: in general it is false; refuted are an unsigned index that wraps, regrouping of signed sums, flags copied to a shift, a factor above 2^32, and three cases of 32-bit addressing. Left out of the model: extractvalue/insertvalue, shuffles of two vectors."
  },
  {
   "property": "C38",
   "status": "partial",
   "theorems": [
    "C38_sync_waits_for_all_tasks_once_each",
    "C38_return_waits_for_all_tasks_once_each",
    "C38_tasks_are_called_as_launched",
    "C38_never_undefined",
    "C38_all_functions_can_return",
    "C38_exit_only_at_limit",
    "C38_limit",
    "C38_sync_waits_any_threads_partial",
    "C38_return_waits_any_threads_partial",
    "C38_tasks_are_called_as_launched_any_threads_partial",
    "C38_launches_have_their_own_arguments_partial",
    "C38_never_undefined_any_threads_partial",
    "C38_all_functions_can_return_any_threads_partial",
    "C38_sync_returns_early_after_failed_cas_refuted",
    "C38_launch_of_no_tasks_refuted"
   ],
   "note": "Proved of a small-step model of the pthreads task system for every schedule, any number of worker threads and launches, when all launches are made from one thread outside of tasks (nested launches come from worker threads). For launches from any number of threads the same theorems are proved under the hypothesis that no compare-and-swap in AllocTaskGroup failed (_any_threads_partial); without it sync can return early (refuted), as after launch[0] (refuted)."
  },
  {
   "property": "C39",
   "status": "partial",
   "theorems": [
    "C39_blocks_aligned_inside_and_disjoint_partial",
    "C39_fails_only_when_all_buffers_used",
    "C39_large_request_overruns_buffer_refuted",
    "C39_sixteen_large_requests_refuted",
    "C39_small_requests",
    "C39_buffers_leak_refuted"
   ],
   "note": "For power-of-two alignments and size plus alignment at most 2^30, over any number of uses and syncs of the group. Requests of 2^31 bytes overrun the buffer and a seventeenth buffer fails an assertion (refuted)."
  },
  {
   "property": "C40",
   "status": "partial",
   "theorems": [
    "C40_no_crash_partial",
    "C40_exists_iff_referenced_partial",
    "C40_use_count_partial",
    "C40_no_leak_partial",
    "C40_wrappers_partial",
    "C40_intrusive_partial",
    "C40_threads",
    "C40_static_link_partial",
    "C40_task_queue_future_refuted",
    "C40_static_link_refuted",
    "C40_copy_assign_leak_refuted",
    "C40_move_assign_leak_refuted",
    "C40_copy_null_refuted",
    "C40_intrusive_move_assign_refuted"
   ],
   "note": "The full property is false of the code: task queues delete retained futures, statically linked modules share library handles, wrapper assignment and IntrusivePtr move assignment leak, and copying an empty wrapper dereferences null (the _refuted theorems).  The _partial theorems exclude exactly those uses and otherwise cover every history of API calls, of wrapper operations and of pointer operations; C40_threads covers every interleaving of threads.  CPU device only (the GPU device needs Level Zero)."
  },
  {
   "property": "C41",
   "status": "proved",
   "theorems": [
    "C41_innermost_declaration",
    "C41_outermost_scope",
    "C41_innermost_type",
    "C41_leaving_a_block_restores",
    "C41_leaving_all_blocks",
    "C41_redeclaration",
    "C41_type_redefinition",
    "C41_function_redeclaration",
    "C41_overloads"
   ],
   "note": "The symbol table is modelled as the vector of scopes it is, with every operation sequence a program can make; lookups are related to the declarations in force by an independent definition over the history."
  },
  {
   "property": "C42",
   "status": "partial",
   "theorems": [
    "C42_runs_supported_partial",
    "C42_runs_best_partial",
    "C42_terminates_partial",
    "C42_macos_runs_supported_partial",
    "C42_macos_runs_best_partial",
    "C42_macos_icl_refuted",
    "C42_vnni_refuted",
    "C42_fma_refuted",
    "C42_knl_refuted",
    "C42_threads",
    "C42_unordered_partial",
    "C42_unordered_refuted",
    "C42_accepts",
    "C42_common",
    "C42_common_refuted"
   ],
   "note": "x86 dispatch on Linux/Windows register checks; the macOS variant of the OS checks appears in the model but soundness is proved for the other systems. AVX2VNNI on AVX-512 hosts, Knights Landing, FMA and unordered loads are refuted with concrete machines."
  },
  {
   "property": "C43",
   "status": "partial",
   "theorems": [
    "C43_print_parse_partial",
    "C43_nozmm_refuted",
    "C43_former",
    "C43_list",
    "C43_empty_refuted",
    "C43_families",
    "C43_arch",
    "C43_arch_sound",
    "C43_os",
    "C43_os_sound_partial",
    "C43_linux_refuted"
   ],
   "note": "-nozmm names, empty list entries and linux/custom_linux are refuted."
  },
  {
   "property": "C44",
   "status": "partial",
   "theorems": [
    "C44_value_and_type_partial",
    "C44_binary_warning",
    "C44_suffix_decides",
    "C44_octal_refuted",
    "C44_too_big_refuted"
   ],
   "note": "Proved for every literal that some permitted type can hold, except decimal literals of several digits with a leading zero and unsuffixed foreach bounds in 2^31..2^32-1. Refuted for those, and for literals that no permitted type can hold (accepted silently)."
  },
  {
   "property": "C45",
   "status": "proved",
   "theorems": [
    "C45_varying_call",
    "C45_each_instance_gets_its_result"
   ],
   "note": "The callee is an arbitrary function of its address, mask and the state."
  },
  {
   "property": "C46",
   "status": "partial",
   "theorems": [
    "C46_agree_off_ties_partial",
    "C46_ties_refuted"
   ],
   "note": "Refuted: software rounds ties away from zero, hardware ties to even; they agree off ties."
  },
  {
   "property": "C47",
   "status": "partial",
   "theorems": [
    "C47_values_of_other_lanes_do_not_matter_partial",
    "C47_overflow_in_lane_that_is_off_refuted"
   ],
   "note": "Proved for --wrap-signed-int (expressions without assignments in short-circuited positions); refuted by witness for the default nsw mode."
  },
  {
   "property": "C48",
   "status": "proved",
   "theorems": [
    "C48_equality_is_an_equivalence",
    "C48_equal_functions_link"
   ],
   "note": "Proved for all types of the model; symbols for types without soa pointers (a type no program can declare)."
  },
  {
   "property": "C49",
   "status": "proved",
   "theorems": [
    "C49_no_varying_to_uniform",
    "C49_no_varying_argument_for_uniform_parameter"
   ],
   "note": "Proved for all types of the model except an array becoming a pointer, which is checked element-wise elsewhere."
  },
  {
   "property": "C50",
   "status": "proved",
   "theorems": [
    "C50_edit_distance",
    "C50_suggestions",
    "C50_closest_options"
   ],
   "note": "StringEditDistance, with its early exit, is proved equal to the least number of edits whenever that is within the limit, for all strings and limits; suggestions and option matches are characterised exactly."
  },
  {
   "property": "C51",
   "status": "partial",
   "theorems": [
    "C51_strings_partial",
    "C51_hex_escape_refuted"
   ],
   "note": "Proved for all strings without hexadecimal escapes; hexadecimal escapes are refuted."
  },
  {
   "property": "C52",
   "status": "partial",
   "theorems": [
    "C52_c_comment",
    "C52_unterminated_comment",
    "C52_line_comment",
    "C52_pragma_line",
    "C52_pragma_refuted"
   ],
   "note": "Comments are proved for all texts; #pragma is refuted at the end of a file that has no final line end (the scanner loops forever)."
  },
  {
   "property": "C53",
   "status": "partial",
   "theorems": [
    "C53_hex_float_exact_partial",
    "C53_small_exponents_refuted"
   ],
   "note": "Exact for at most 13 fraction digits and exponents -1022..1023, proved through the IEEE operations the parser performs. Refuted below: 0x1p-1030 is read as zero."
  },
  {
   "property": "C54",
   "status": "partial",
   "theorems": [
    "C54_return_syncs_partial",
    "C54_return_syncs_mixed_mask",
    "C54_outcomes",
    "C54_return_in_loop_before_launch_refuted"
   ],
   "note": "Holds when no loop has a return before a launch in its text, and always in the copy of the body for a mask that is not all on. A return before a launch in a loop misses the sync (refuted). switch and goto are not modelled."
  },
  {
   "property": "C55",
   "status": "partial",
   "theorems": [
    "C55_thread_index_in_range_partial",
    "C55_thread_index_not_unique_refuted"
   ],
   "note": "The range is proved under the hypotheses of C38; uniqueness fails because a thread in sync runs tasks with index 0 (refuted)."
  },
  {
   "property": "C56",
   "status": "partial",
   "theorems": [
    "C56_files_distinct",
    "C56_directory_partial",
    "C56_directory_refuted"
   ],
   "note": ""
  },
  {
   "property": "C57",
   "status": "proved",
   "theorems": [
    "C57_name",
    "C57_forms",
    "C57_libraries",
    "C57_link",
    "C57_root"
   ],
   "note": "All tables (names, constructor, TargetToISA, parent map) are generated from the sources; a full-featured build (ARM, PPC64, RISC-V, WASM, Xe enabled) is modelled."
  },
  {
   "property": "C58",
   "status": "partial",
   "theorems": [
    "C58_all_equal_partial",
    "C58_all_equal_loops_partial",
    "C58_linear_partial",
    "C58_linear_loops_partial",
    "C58_linear_direction_refuted",
    "C58_linear_uses_refuted",
    "C58_all_equal_loops_refuted",
    "C58_all_equal_constants_refuted",
    "C58_all_equal_negative_refuted",
    "C58_all_equal_casts_refuted",
    "C58_linear_wrap_refuted"
   ],
   "note": "Proved for the compiler's analyses when no vector is carried round a loop, and for loops of any length for the analysis that remembers what it assumed of each PHI node; constants as described by tame, no jumps of half the range under a widening. Missing: the compiler's own analysis forgets what it assumed, and is refuted on loops in three ways, and on constants, inner casts and narrow indices that wrap in four more."
  },
  {
   "property": "C59",
   "status": "partial",
   "theorems": [
    "C59_scalar_load_partial",
    "C59_vector_partial",
    "C59_reversed_partial",
    "C59_scalar_load_off_refuted",
    "C59_offset_32_refuted"
   ],
   "note": "Proved for 64-bit offsets, and for 32-bit ones that stay in the range of an int, with the conditions of C58 and no vector carried round a loop. Refuted: the scalar load is done with all lanes off; 32-bit whole offsets wrap. Left out of the model: the choice of element types and alignment."
  },
  {
   "property": "C60",
   "status": "partial",
   "theorems": [
    "C60_address_partial",
    "C60_no_overlap",
    "C60_within_array",
    "C60_same_as_ordinary_array_partial",
    "C60_memory_is_an_array",
    "C60_pointer_plus",
    "C60_pointer_minus",
    "C60_pointer_walk",
    "C60_pointer_difference",
    "C60_gather",
    "C60_scatter",
    "C60_two_dimensions_refuted",
    "C60_member_array_of_arrays_refuted",
    "C60_pointer_into_member_array_refuted",
    "C60_uint32_index_refuted"
   ],
   "note": "Layout, addresses, programs of reads and assignments, pointer arithmetic, gathers and scatters proved for all types, widths and indices. Arrays of arrays, pointers into member arrays and varying uint32 indices above 2^31 are refuted."
  },
  {
   "property": "C61",
   "status": "partial",
   "theorems": [
    "C61_print_partial",
    "C61_print_xe",
    "C61_xe_formats_are_short",
    "C61_wrong_number_of_values",
    "C61_long_value_undefined",
    "C61_buffer_overflow_refuted",
    "C61_boolean_off_refuted",
    "C61_long_output_refuted"
   ],
   "note": "Exact output, including where it is cut off, for every format and values whose texts fit the 1024-byte buffer; longer varying values overflow the buffer (proved for all, refuted with a witness). Varying booleans of instances that are off print as underscores. Xe: complete."
  },
  {
   "property": "C62",
   "status": "partial",
   "theorems": [
    "C62_assert_varying",
    "C62_assert_varying_generic",
    "C62_xe_message_refuted"
   ],
   "note": "Both implementations, every mask representation. On Xe the message of a failed assertion is used as a printf format (refuted)."
  },
  {
   "property": "C63",
   "status": "partial",
   "theorems": [
    "C63_defined",
    "C63_uniform",
    "C63_uniform_to_varying",
    "C63_varying",
    "C63_uniform_vectors",
    "C63_uniform_to_varying_vectors",
    "C63_varying_vectors",
    "C63_splat_partial",
    "C63_splat_uniform_to_varying",
    "C63_splat_varying",
    "C63_splat_bool_refuted",
    "C63_structures",
    "C63_exact_integers",
    "C63_pointer_to_integer",
    "C63_pointer_round_trip",
    "C63_integer_to_pointer",
    "C63_pointer_to_pointer",
    "C63_pointer_to_bool",
    "C63_enumerators",
    "C63_negative_enumerator_refuted"
   ],
   "note": "Every pair of basic types, uniform and varying, scalars, short vectors, splats, structures, pointers, enumerators. Missing from the partial theorem: a uniform value converted to a uniform short vector of bool, where the compiler fails an assertion (refuted). Floating point to integer conversions of values out of range yield poison and are excluded, as in LLVM. Slice pointers and reference casts are not modelled; Xe's own bool handling neither."
  },
  {
   "property": "C64",
   "status": "partial",
   "theorems": [
    "C64_initialises_partial",
    "C64_order_partial",
    "C64_one_value",
    "C64_wrong_length",
    "C64_no_conversion",
    "C64_varying_rejected",
    "C64_dimensions",
    "C64_vector_short_refuted",
    "C64_evaluated_twice_refuted",
    "C64_vector_order_refuted",
    "C64_bool_vector_refuted",
    "C64_varying_accepted_refuted",
    "C64_nested_braces_refuted"
   ],
   "note": "Initializers of basic types, short vectors, arrays and structures at any nesting: the value in memory, each expression evaluated exactly once, errors for wrong lengths and types, unsized dimensions. Missing: uniform vector lists of non-constants that are too short, have nested braces, bool elements or a lone value of another type (refuted), enumerations, pointers, references and soa types."
  },
  {
   "property": "C65",
   "status": "partial",
   "theorems": [
    "C65_layout_partial",
    "C65_natural_partial",
    "C65_inside",
    "C65_apart",
    "C65_varying_enum_refuted",
    "C65_varying_pointer_refuted",
    "C65_varying_vector_refuted",
    "C65_soa_vector_refuted",
    "C65_array_of_varying_refuted",
    "C65_aligned_refuted",
    "C65_empty_refuted",
    "C65_arm_refuted",
    "C65_targets_refuted"
   ],
   "note": "Sizes, alignments and offsets of members, elements and lanes agree for structures of basic types, enumerations, pointers, uniform short vectors, arrays and structures at any nesting, uniform, varying or soa, on targets with naturally aligned vectors; members are inside and do not overlap. Missing: varying enumerations, pointers and vectors as members, arrays of varying structures, explicitly aligned and empty structures, 32-bit ARM (refuted)."
  },
  {
   "property": "C66",
   "status": "partial",
   "theorems": [
    "C66_in_order_partial",
    "C66_declared_partial",
    "C66_explicit_refuted",
    "C66_guard_refuted",
    "C66_varying_vector_refuted",
    "C66_array_of_varying_refuted",
    "C66_dispatch_refuted"
   ],
   "note": "Every structure is declared, after what its members need, and stays after preprocessing. Missing: soa structures, arrays of varying structures, varying vectors, enumerations and vectors in explicitly exported structures, common header of several targets (refuted); function declarations themselves."
  },
  {
   "property": "C67",
   "status": "partial",
   "theorems": [
    "C67_disjoint",
    "C67_inside",
    "C67_allocations_disjoint",
    "C67_no_crash",
    "C67_stable",
    "C67_no_leak",
    "C67_no_failure",
    "C67_size_partial",
    "C67_size_refuted",
    "C67_device_view_refuted",
    "C67_reuse",
    "C67_reuse_refuted"
   ],
   "note": "Views of one pool and direct allocations; the sizes views report only grow (refuted that they stay the same); views for a device instead of a context with a pool hint dereference a null pointer (refuted). Not modelled: threads, the bound of 2^30 as an integer type, lifetime of contexts."
  },
  {
   "property": "C68",
   "status": "partial",
   "theorems": [
    "C68_order",
    "C68_result",
    "C68_sync_partial",
    "C68_future",
    "C68_progress",
    "C68_no_deadlock",
    "C68_limit",
    "C68_barrier_copy_refuted",
    "C68_barrier_host_refuted",
    "C68_copy_view_refuted",
    "C68_sync_copy_refuted",
    "C68_sync_kernel_refuted",
    "C68_time",
    "C68_dims_partial",
    "C68_dims_refuted"
   ],
   "note": "Order, results, futures, progress and limits are proved for every schedule of the device. C68_sync_partial: with a copy engine only for batches whose last commands are waited for. Refuted: with several command lists barriers do not order copies (C68_barrier_copy_refuted, C68_barrier_host_refuted, C68_copy_view_refuted); with a copy engine sync returns too early (C68_sync_copy_refuted, C68_sync_kernel_refuted); C68_dims_partial: sizes of launches that are multiples of the suggested group size and below 2^32, otherwise C68_dims_refuted."
  },
  {
   "property": "C69",
   "status": "partial",
   "theorems": [
    "C69_table",
    "C69_exact_partial",
    "C69_join",
    "C69_join_order",
    "C69_explicit",
    "C69_default",
    "C69_types",
    "C69_same_instance",
    "C69_body_partial",
    "C69_compiled",
    "C69_late_partial",
    "C69_base_type_refuted",
    "C69_vector_refuted",
    "C69_array_refuted",
    "C69_long_name_refuted",
    "C69_default_argument_refuted",
    "C69_kind_refuted",
    "C69_number_type_refuted",
    "C69_return_type_refuted",
    "C69_instantiation_refuted",
    "C69_no_specialization_refuted",
    "C69_reference_refuted"
   ],
   "note": "Deduction for parameters of the shapes pointers to T, references to these and T<N>; other shapes, kinds of explicit arguments, types of numbers, return types of specializations and late explicit instantiations are refuted."
  },
  {
   "property": "C70",
   "status": "partial",
   "theorems": [
    "C70_round_float_partial",
    "C70_floor_float_partial",
    "C70_ceil_float_partial",
    "C70_round_double_xe_partial",
    "C70_round_half",
    "C70_special",
    "C70_trunc_xe_partial",
    "C70_round_large_refuted",
    "C70_ceil_large_refuted",
    "C70_xe_double_refuted",
    "C70_double_half_way_refuted",
    "C70_trunc_xe_refuted",
    "C70_trunc_sign_refuted",
    "C70_floor_sign_refuted"
   ],
   "note": "Proved for the whole range in which adding the constant works: float on sse2/wasm up to 2^23, double on Xe up to 2^53-4.5036e15, float16 for all values; infinities and NaN for round. Refuted beyond: from 2^23 on odd floats change, just beyond the bound doubles on Xe change, sse2/wasm double rounds half-way cases away from zero, Xe trunc is poison from 2^53 on, signs of zero are lost. Hardware rounding instructions are not modelled."
  },
  {
   "property": "C71",
   "status": "partial",
   "theorems": [
    "C71_ldexp_partial",
    "C71_ldexp_zero_partial",
    "C71_frexp_partial",
    "C71_round_trip",
    "C71_abs",
    "C71_classify",
    "C71_iabs_partial",
    "C71_iabs_refuted",
    "C71_ldexp_overflow_refuted",
    "C71_ldexp_underflow_refuted",
    "C71_ldexp_infinity_refuted",
    "C71_ldexp_denormal_refuted",
    "C71_ldexp_fast_zero_refuted",
    "C71_frexp_special_refuted",
    "C71_frexp_denormal_refuted"
   ],
   "note": "ldexp and frexp proved for normal numbers (and zero without fast math), they are inverses; abs, signbits and classification proved for all values of all three formats. Refuted: overflow, underflow, infinity, denormals, zero for frexp and fast ldexp, integer abs of the least value."
  },
  {
   "property": "C72",
   "status": "partial",
   "theorems": [
    "C72_special_partial",
    "C72_infinity_refuted",
    "C72_remainder_refuted",
    "C72_sign_refuted",
    "C72_denormal_refuted",
    "C72_lanes_refuted"
   ],
   "note": "Special arguments proved for any rcp and trunc. Refuted: infinity by infinity, wrong remainders even with correctly rounded rcp and exact trunc, denormal y, and the sign of NaN shared between lanes."
  },
  {
   "property": "C73",
   "status": "partial",
   "theorems": [
    "C73_minmax",
    "C73_clamp",
    "C73_sse_nan_partial",
    "C73_avx_nan_refuted",
    "C73_avx_clamp_refuted",
    "C73_wide_nan_refuted",
    "C73_double_nan_refuted"
   ],
   "note": "min, max, clamp proved for numbers including infinities for every definition in the table (all targets except Xe float/float16, which use intrinsics, and generic ones). Refuted: uniform and varying versions disagree when an argument is NaN."
  },
  {
   "property": "C74",
   "status": "partial",
   "theorems": [
    "C74_declarations_partial",
    "C74_typedefs_partial",
    "C74_unique",
    "C74_specifier_order_partial",
    "C74_members_partial",
    "C74_enumerators",
    "C74_abstract_refuted",
    "C74_function_refuted",
    "C74_typedef_refuted",
    "C74_void_refuted",
    "C74_member_refuted"
   ],
   "note": "Proved for declarations with built-in types, structures and enumerations as atoms, void, typedefs, const/uniform/varying, pointers, references, arrays, functions and abstract declarators; left out: signed/unsigned, short vectors, soa, storage classes, attributes and function qualifiers. The theorems named _partial exclude typedef names for void or references, typedef names with a variability that are not the last specifier, abstract declarators with a qualified or repeated pointer before an array, and unnamed function parameters: there the compiler does something else (the _refuted theorems)."
  },
  {
   "property": "C75",
   "status": "partial",
   "theorems": [
    "C75_const_kept_partial",
    "C75_pointer_conversions",
    "C75_warning_needed",
    "C75_array_to_void_refuted",
    "C75_reference_refuted",
    "C75_struct_assign_refuted",
    "C75_member_to_void_refuted",
    "C75_pointer_reference_refuted"
   ],
   "note": "Proved for programs without casts that do not call memset (any function taking void *), declare no reference to a const pointer or to an array of const pointers, and have no structure member that is an array of structures with const members; the four gaps are refuted with programs that compile without a warning. Variability, short vectors, SOA, function pointers, new/delete and functions returning references are not in the model."
  },
  {
   "property": "C76",
   "status": "partial",
   "theorems": [
    "C76_averages_partial",
    "C76_no_instruction_no_change",
    "C76_averages_recognized",
    "C76_divide_by_three_refuted",
    "C76_shift_constant_partial",
    "C76_shift_constant_value",
    "C76_shift_constant_overflow_refuted"
   ],
   "note": "Proved for all expressions without a division by 3 (and without the no-op constants /1 and +0 that InstCombine removes before). The pattern accepts a divisor of 3, refuted with a witness; a constant shift near 2^31 overflows the compiler's int, refuted with a witness."
  },
  {
   "property": "C77",
   "status": "partial",
   "theorems": [
    "C77_split_partial",
    "C77_quoting",
    "C77_command_line",
    "C77_response_files_partial",
    "C77_quotes_refuted",
    "C77_quoted_file_refuted",
    "C77_cycle_refuted"
   ],
   "note": "Texts with quotation marks are read with quoting, contrary to the documentation (refuted); C77_quoting shows that with it every list of arguments can be written. Files that name themselves are refuted. NUL characters in files are excluded."
  },
  {
   "property": "C78",
   "status": "partial",
   "theorems": [
    "C78_element_read",
    "C78_swizzle_partial",
    "C78_swizzle_lanes_refuted",
    "C78_swizzle_arrow_refuted",
    "C78_rejected",
    "C78_sizeof_refuted",
    "C78_element_write",
    "C78_swizzle_not_assignable"
   ],
   "note": "Swizzles through varying pointers read the wrong lane or overrun a temporary (two refutations); sizeof of an invalid swizzle is accepted (refuted). soa<> vectors and bool storage are not modelled."
  },
  {
   "property": "C79",
   "status": "partial",
   "theorems": [
    "C79_legal_compiles",
    "C79_variable_types",
    "C79_start_value_partial",
    "C79_one_definition_partial",
    "C79_two_definitions_refuted",
    "C79_visibility_partial",
    "C79_static_variable_refuted",
    "C79_read_only_partial",
    "C79_read_only_pointer_refuted",
    "C79_one_meaning",
    "C79_overloads",
    "C79_export_not_overloaded",
    "C79_task_void",
    "C79_extern_c_partial",
    "C79_extern_c_overload_refuted",
    "C79_one_body_partial",
    "C79_two_bodies_refuted",
    "C79_static_function_refuted"
   ],
   "note": "Refuted parts: after an extern declaration any number of definitions compile, with different stored and compile-time values; static on a later declaration is lost; const in the specifiers of a pointer puts the pointer into read-only memory; overloads of an extern \"C\" function declared first are accepted; second bodies of external_only functions are ignored silently. Partial theorems prove the rest."
  },
  {
   "property": "C80",
   "status": "partial",
   "theorems": [
    "C80_new_partial",
    "C80_new_succeeds",
    "C80_uniform_new_partial",
    "C80_delete",
    "C80_delete_own",
    "C80_delete_twice",
    "C80_uniform_new_rate_refuted",
    "C80_new_size_refuted",
    "C80_generic_size_refuted",
    "C80_uniform_new_failure_refuted",
    "C80_initializer_alignment_partial",
    "C80_initializer_alignment_refuted"
   ],
   "note": "Refuted parts: uniform new float[10] allocates uniform floats, not varying ones as documented; the size wraps at 32 bits by default; the generic library passes 32-bit sizes on 64-bit targets; uniform new returns an undefined pointer and stores the initializer through it if there is no memory; the initializer of a varying 8-byte type is stored with more alignment than the block has."
  },
  {
   "property": "C81",
   "status": "partial",
   "theorems": [
    "C81_same_partial",
    "C81_no_failure",
    "C81_valid",
    "C81_too_big",
    "C81_submit_twice_refuted",
    "C81_not_submitted_refuted",
    "C81_write_before_submit_refuted",
    "C81_order_of_lists_refuted",
    "C81_list_future_refuted",
    "C81_no_host_memory_refuted"
   ],
   "note": "C81_same_partial is for programs that keep the rules of PortSpec.v (data copied before use, views in use not touched, one list filled at a time and submitted once). Without them the devices differ: C81_submit_twice_refuted, C81_not_submitted_refuted, C81_write_before_submit_refuted, C81_order_of_lists_refuted, C81_list_future_refuted, C81_no_host_memory_refuted. Not modelled: commands of one list that the GPU executes out of order (C68 for the task queue), views of the same application memory, times of futures."
  },
  {
   "property": "C82",
   "status": "partial",
   "theorems": [
    "C82_white_space",
    "C82_words",
    "C82_width_partial",
    "C82_width_refuted",
    "C82_newline_partial",
    "C82_newline_lost_refuted",
    "C82_fails",
    "C82_printed",
    "C82_order",
    "C82_no_silent_failure_partial",
    "C82_silent_failure_refuted",
    "C82_quiet_refuted",
    "C82_quiet_partial",
    "C82_pragma_partial",
    "C82_pragma_lines_refuted",
    "C82_stdlib_name_refuted"
   ],
   "note": "Proved: C82_words, C82_fails, C82_printed, C82_order for all messages, options, pragmas and findings. Refuted: wide lines after blanks, lost line breaks, failure without a message for --woff --werror, --quiet that changes the outcome, pragmas before findings that span lines, files named like the library. Not modelled: colours in the heading, the lines of the source file after a message, the parser of the pragma."
  },
  {
   "property": "C83",
   "status": "partial",
   "theorems": [
    "C83_unroll_count_partial",
    "C83_unroll_parentheses_partial",
    "C83_unroll_bases_partial",
    "C83_unroll",
    "C83_ignore",
    "C83_ignore_effect",
    "C83_tab_refuted",
    "C83_lines_partial",
    "C83_unknown_line_refuted",
    "C83_large_count_refuted",
    "C83_prefix_refuted",
    "C83_zero"
   ],
   "note": "Proved: C83_unroll, C83_ignore (equivalence), C83_ignore_effect, C83_zero for all texts. Partial: counts below 2^31, line numbers without unknown pragmas. Refuted: line numbers after an unknown pragma, large counts, words that begin with unroll, a tab after the argument. Not modelled: columns, and which statements take the attribute. A pragma on a last line without line end is in C52."
  },
  {
   "property": "C84",
   "status": "partial",
   "theorems": [
    "C84_names_partial",
    "C84_rule_partial",
    "C84_rule_text_partial",
    "C84_flat_partial",
    "C84_target",
    "C84_target_directory_refuted",
    "C84_blank_refuted",
    "C84_not_ascii_refuted",
    "C84_octal_listed",
    "C84_quote_refuted",
    "C84_flat_escaped_refuted",
    "C84_library_name_refuted"
   ],
   "note": "For names of plain characters the rule read as make reads it is the target with every file exactly once (C84_rule_partial), also the flat list; the text of the rule is given for every name the preprocessor carries (C84_rule_text_partial). Names with blanks, quotes, bytes outside ASCII, backslashes in the flat list, and a user's own stdlib.ispc are refuted."
  },
  {
   "property": "C85",
   "status": "partial",
   "theorems": [
    "C85_labels",
    "C85_narrow_partial",
    "C85_wide_partial",
    "C85_accepted_partial",
    "C85_wide_unsigned_refuted",
    "C85_wide_duplicate_refuted",
    "C85_wide_label_refuted",
    "C85_float_operand_refuted",
    "C85_outside"
   ],
   "note": "For operands of at most 32 bits, and for 64 bits with labels that an int holds, the label taken is C's (C85_narrow_partial, C85_wide_partial). Refuted: unsigned labels of 2^31 and more with a 64-bit operand (wrong label, and called duplicates of negative ones), labels of more than 32 bits, float operands."
  },
  {
   "property": "C86",
   "status": "partial",
   "theorems": [
    "C86_random_range",
    "C86_frandom_range",
    "C86_instances",
    "C86_instances_off",
    "C86_alive_partial",
    "C86_good_seeds",
    "C86_documented_seed_refuted",
    "C86_seed_zero_refuted",
    "C86_beef_seed_refuted"
   ],
   "note": "range and instances complete; exactly which seeds give a state that meets the condition of the algorithm, and that it holds for ever from them; refuted: the documented seed 1 and seeds 0 and 0xbeeff00d lose words of the state, seed 0 repeats 27 bits of each number. Missing: the length of the sequence."
  }
 ]
}