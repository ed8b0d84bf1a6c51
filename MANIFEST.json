{"claims": [
 {"property": "C01", "status": "proved", "theorems": ["C01_mul_correctly_rounded"], "note": "all widths wE>=2, wF>=1, rounding branch of mul"},
 {"property": "C02", "status": "partial", "theorems": ["C02_mul_exact_partial", "C02_mul_exact_underflow_refuted"], "note": "exact branch returns NaN on underflow instead of zero (finding); exact otherwise"},
 {"property": "C03", "status": "partial", "theorems": ["C03_add_single_correctly_rounded_partial", "C03_add_single_refuted", "C03_add_single_error", "C03_add_single_next_to", "C03_add_small_partial"], "note": "all formats and mixed operand formats; the code misrounds power-of-two minus a non-power-of-two F+2 binades below (finding); full characterisation of the result in that case too. The error is within 2^-F of the exact sum, relatively, in every case, and the result is the right one or next to it."},
 {"property": "C04", "status": "partial", "theorems": ["C04_add_dual_correctly_rounded_partial", "C04_legal_widths", "C04_add_dual_refuted", "C04_add_dual_right_widths"], "note": "correct for every format of at most 128 bits except F=1, F=61 with E>=7, E=4 with F>=33, E=5 with F>=65; those are refuted (finding); mixed operand formats included; the formats of at most 128 bits in which it is right are determined exactly"},
 {"property": "C05", "status": "partial", "theorems": ["C05_add_single_asserts_refuted", "C05_add_single_power_of_two_refuted", "C03_add_single_correctly_rounded_partial", "C05_add_dual_asserts_refuted", "C04_add_dual_correctly_rounded_partial"], "note": "both adders: the widths that abort, and no assertion failure in the others (finding)"},
 {"property": "C06", "status": "proved", "theorems": ["C06_div_correctly_rounded"], "note": "all widths wE>=2, wF>=1, all operands, mixed operand formats"},
 {"property": "C07", "status": "partial", "theorems": ["C07_inv_always_aborts_refuted", "C07_inv_with_intended_literal_partial"], "note": "false of the code: inv aborts on every call (octal literal); the rest of the algorithm is proved correct with the intended literal"},
 {"property": "C08", "status": "proved", "theorems": ["C08_square_correctly_rounded"], "note": "rounding branch; the exact branch is covered by C02"},
 {"property": "C09", "status": "proved", "theorems": ["C09_neg_flips_sign_only", "C09_neg_other_format_partial"], "note": "same format: full; to another format it inherits the defect of C18"},
 {"property": "C10", "status": "partial", "theorems": ["C10_add_single_commutative", "C10_add_single_self_cancels", "C10_add_single_mirror", "C10_mul_commutative", "C10_add_dual_commutative", "C10_add_dual_self_cancels", "C10_add_dual_mirror"], "note": "both adders and mul at the widths where they are defined"},
 {"property": "C11", "status": "partial", "theorems": ["C11_comparisons_ieee_order_partial", "C11_infinity_payload_refuted", "C11_infinity_mixed_format_refuted", "C63_wrapper_comparisons_partial"], "note": "IEEE order for all formats and operands except two infinities of the same sign, which the code compares by payload (finding)"},
 {"property": "C12", "status": "proved", "theorems": ["C12_comparisons_consistent", "C12_less_than_transitive"], "note": "all formats, all non-NaN operands including infinities with payloads"},
 {"property": "C13", "status": "proved", "theorems": ["C13_equals_is_identity"], "note": ""},
 {"property": "C14", "status": "proved", "theorems": ["C14_nextup_is_successor"], "note": ""},
 {"property": "C15", "status": "partial", "theorems": ["C15_nextdown_is_predecessor_partial", "C15_nextdown_refuted", "C15_nextdown_negative_refuted", "C90_nextafter_down_refuted"], "note": "nextdown is wrong at positive powers of two and negative all-ones fractions (finding), at every one of them (C90_nextafter_down_refuted); correct elsewhere"},
 {"property": "C16", "status": "proved", "theorems": ["C16_promote_lossless", "C16_promote_to_ieee_lossless"], "note": "flopoco to flopoco and flopoco to a wider-exponent IEEE format"},
 {"property": "C17", "status": "partial", "theorems": ["C17_promote_ieee_same_exponent_width", "C17_promote_ieee_normals_partial", "C17_promote_ieee_specials_refuted"], "note": "false of the code for zeros, infinities and NaNs when the exponent widens (finding); proved for normals and for equal exponent widths"},
 {"property": "C18", "status": "partial", "theorems": ["C18_convert_correctly_rounded_partial", "C18_convert_zero_to_infinity_refuted"], "note": "correct except for zeros/NaNs with an all-ones exponent field when only the fraction narrows (finding)"},
 {"property": "C19", "status": "proved", "theorems": ["C19_ieee_to_flopoco_exact", "C19_flopoco_to_ieee_rounds", "C19_flopoco_to_ieee_canonical", "C19_roundtrip"], "note": ""},
 {"property": "C20", "status": "partial", "theorems": ["C20_wrapper_mul", "C20_wrapper_div", "C20_wrapper_add_partial", "C20_wrapper_add_aborts_refuted", "C20_wrapper_comparisons", "C20_wrapper_add_right_widths"], "note": "mul, div and comparisons at all widths; add at the widths where the dual-path adder is right (half, single, double included), and refuted for F=1 and F=61; the formats of at most 128 bits in which the sum is right are determined exactly"},
 {"property": "C21", "status": "partial", "theorems": ["C21_fma_two_roundings_partial", "C21_fma_rounds_once_partial", "C21_fma_rounds_once_refuted", "C21_fma_never_fused_refuted", "C21_fma_next_to", "C21_flopoco_fma_partial"], "note": "False as stated (the source has a BUG comment): refuted in every format in which the wide adder works (F>=1), and for all F>=3, 2F+6<=2^E. Proved: exactly two roundings, one rounding except when the first is inexact and half way, and in every case the right result or a neighbour of it."},
 {"property": "C22", "status": "proved", "theorems": ["C22_dot2_rounds_down", "C22_dot2_rejects_others"], "note": "WE <= 30 because the code computes 1<<WE in int"},
 {"property": "C23", "status": "partial", "theorems": ["C23_dot4_rounds_down_partial", "C23_dot4_rounds_down_refuted", "C23_dot4_rejects_others", "C23_dot4_narrow", "C23_dot4_formats"], "note": "False as stated: carries out of the shifted-out tails are lost. C23_dot4_formats says exactly in which formats every sum is right: 3*2^(E-1)-2 < 4F, and <2,1>; the formats of half, single and double precision are among the others. Proved everywhere: the error bound, and exactness when at most one product lies more than 4F-1 below the largest."},
 {"property": "C24", "status": "partial", "theorems": ["C24_to_mpz", "C24_build", "C24_merge", "C24_merge_totals", "C24_shift", "C24_negative_shift", "C24_pad", "C24_pad_total", "C24_pad_narrower", "C24_pad_keeps_value_refuted", "C24_merge_widths_refuted"], "note": "Building, shifting and merging of equal widths hold as stated. Padding keeps the weighted sum, but not the value of a heap that overflows its width; merging unequal widths likewise (both refuted)."},
 {"property": "C25", "status": "proved", "theorems": ["C25_step", "C25_step_height", "C25_max_height", "C25_compress_ends", "C25_compress_levels", "C25_compress", "C25_collapse", "C25_collapse_high"], "note": "Every heap shape and content. Also the exact heights of each level and the number of levels."},
 {"property": "C26", "status": "proved", "theorems": ["C26_mul", "C26_empty_operand_refuted"], "note": "Every tile size >= 1 and operand widths >= 1; an operand of width 0 may not compile (refuted)."},
 {"property": "C27", "status": "partial", "theorems": ["C27_to_mpz", "C27_add", "C27_add_widths", "C27_add_uint", "C27_compress", "C27_too_few_rows_refuted", "C27_collapse_needs_two", "C27_add_widths_refuted"], "note": "Compression and collapse hold as stated for two rows or more; one row or none is rejected (refuted). Addition adds values for equal widths; refuted for unequal widths when the narrow heap overflows."},
 {"property": "C28", "status": "proved", "theorems": ["C28_skip_forward", "C28_skip_backward", "C28_skip_compose", "C28_even_multiplier_refuted"], "note": "All seeds and int distances; backward skips need an odd multiplier, which the shipped one is; C28_even_multiplier_refuted shows the condition is needed for user-chosen multipliers."},
 {"property": "C29", "status": "proved", "theorems": ["C29_inverses", "C29_skip_forward", "C29_skip_backward", "C29_skip_compose", "C29_never_zero", "C29_int_min_undefined", "C29_seed"], "note": "All states below the modulus, all int distances except INT_MIN, which C29_int_min_undefined shows is undefined in the code."},
 {"property": "C30", "status": "proved", "theorems": ["C30_read", "C30_write", "C30_swap", "C30_permute", "C30_permute_is_shuffle", "C30_permute_reaches_all", "C30_out_of_range_refuted", "C30_empty_part_refuted", "C30_permute_empty_refuted"], "note": "Refinement to lists for every tree shape. Beyond the claim: permute is the documented shuffle and reaches every arrangement; out-of-range indices and trees with empty parts are refuted as usable."},
 {"property": "C31", "status": "proved", "theorems": ["C31_unique", "C31_result_determined", "C31_empty_refuted"], "note": "For every vector of integral constants without empty parts; a vector with an empty part has no unique (refuted)."},
 {"property": "C32", "status": "proved", "theorems": ["C32_step_bits", "C32_tap_list", "C32_every_bit_used", "C32_fanout", "C32_linear", "C32_zero", "C32_depends_only_on_taps", "C32_flips_with_tap", "C32_one_tap_injective", "C32_injective_refuted", "C32_no_taps_refuted"], "note": "Linear, zero kept, each bit the XOR of its taps. Injectivity of the step holds with one tap and is refuted in general."},
 {"property": "C33", "status": "partial", "theorems": ["C33_slice_bits", "C33_slice_outside_aborts", "C33_empty_top_slice_refuted", "C33_slice_of_concat", "C33_parts_of_concat", "C33_concat_of_parts", "C33_single_bits", "C33_padding", "C33_resize", "C33_concat_array", "C33_resize_any_width"], "note": "Holds for every width up to 128 and every non-empty slice; refuted only for the empty slice above the top bit at widths 32, 64, 128 (undefined shift)."},
 {"property": "C34", "status": "partial", "theorems": ["C34_add_sub_wrap", "C34_mul_exact", "C34_square_exact", "C34_carry_adders", "C34_comparisons", "C34_bitwise", "C34_bitwise_int", "C34_or_int_all_ones_refuted", "C34_shifts", "C34_select_copybit", "C34_word_level_agrees"], "note": "All operators proved at the machine-word level; x | int with int = 2^W-1 aborts (refuted). C34_word_level_agrees ties Fw.v to the words."},
 {"property": "C35", "status": "partial", "theorems": ["C35_string_round_trip", "C35_to_string_digits", "C35_binary_text_accepted", "C35_binary_text_complete", "C35_decimal_text", "C35_decimal_out_of_range_rejected_refuted", "C35_mpz_round_trip", "C35_mpz_too_large_rejected", "C35_mpz_negative_rejected_refuted", "C35_mpz_round_trip_width0_refuted", "C35_int_in_range", "C35_uint64", "C35_to_uint64_range", "C35_default"], "note": "Round trips proved; rejection of out-of-range integers holds except negative mpz (stored as absolute value) and decimal overflow at widths 32/64 (saturates); width 0 cannot be rebuilt from mpz."},
 {"property": "C36", "status": "partial", "theorems": ["C36_pair_arithmetic", "C36_pair_bitwise", "C36_pair_shifts", "C36_pair_comparisons", "C36_pair_mask", "C36_pair_mul_partial", "C36_pair_mul_drops_upper_half", "C36_pair_mul_refuted", "C36_pair_of_words"], "note": "Multiplication refuted: 32-bit limb products are truncated; right when no limb product overflows. All other operators of the pair are proved."},
 {"property": "C37", "status": "partial", "theorems": ["C37_add", "C37_mul", "C37_add_range_reached", "C37_shift_const", "C37_shift_variable_partial", "C37_shift_single_partial", "C37_shift_variable_refuted", "C37_shift_variable_negative_refuted", "C37_product", "C37_horner", "C37_union", "C37_construct", "C37_convert_refuted", "C37_select_refuted", "C37_convert_range_refuted", "C37_constant"], "note": "Sum, product and constant shift hold as stated whenever the result type exists, also for products and polynomials of any length. The variable shift holds for a single shift distance or values straddling zero and is refuted otherwise. Conversion never carries the value (refuted)."},
 {"property": "C38", "status": "partial", "theorems": ["C38_compare_refuted", "C38_compare_constant", "C38_compare_partial", "C38_predicates", "C38_checked_shift"], "note": "Refuted: the comparison always answers \"equal\" because the second operand is computed from the first. The checked shift is exact."},
 {"property": "C39", "status": "partial", "theorems": ["C39_exact_when_wide_enough", "C39_one_bit_nearest_even", "C39_nearest_even_refuted", "C39_nearest_even_partial", "C39_error_partial", "C39_minus_refuted"], "note": "Exact and one-bit cases hold. Refuted at every width for two or more dropped bits; then the error is at most 3/4, and rounding is right when the second dropped bit is clear or the kept part odd."},
 {"property": "C40", "status": "partial", "theorems": ["C40_newton_special", "C40_direct_special", "C40_newton_underflow_refuted", "C40_direct_underflow_refuted", "C40_inv_faithful_special"], "note": "Special values and the largest exponent hold. Refuted one exponent below the largest: the exponent wraps and the result is huge."},
 {"property": "C41", "status": "partial", "theorems": ["C41_exact_partial", "C41_negative_refuted", "C41_largest_refuted", "C41_smallest_refuted"], "note": "Exact for non-negative numbers (E<=10, or E=11 away from the ends). Refuted: every negative number comes out positive; wE=11 loses the extreme binades."},
 {"property": "C42", "status": "partial", "theorems": ["C42_adders_agree_partial", "C42_adders_agree_refuted", "C42_dividers_agree", "C42_v2_agrees", "C42_v3_agrees_partial", "C42_v3_other_widths_refuted", "C42_v5_is_v1_swapped", "C42_v5_agrees_partial", "C42_v4_refuted", "C42_v4_rounds_skewed"], "note": "v2, v3 (where it compiles) and v5 agree with v1; dividers agree; v4 and the dual-path adder are refuted, with what v4 computes proved and the dual-path adder's difference delimited."},
 {"property": "C43", "status": "partial", "theorems": ["C43_flopoco_limits", "C43_flopoco_one", "C43_signalling_NaN_refuted", "C43_ieee_limits", "C43_ieee_one", "C43_ieee_signalling_NaN_refuted", "C43_digits", "C43_flopoco_exponents_refuted", "C43_ieee_exponents_refuted", "C43_flopoco_epsilon_refuted", "C43_ieee_epsilon_refuted", "C43_denorm_min"], "note": "flopoco and IEEE formats. Refuted: signalling_NaN() is zero in flopoco and an infinity in IEEE formats; min_exponent and max_exponent are off by one (min_exponent by two in the IEEE wrapper and the SoftFloat type); epsilon() asserts, and with NDEBUG is half the distance. The boolean flags are C85."},
 {"property": "C44", "status": "partial", "theorems": ["C44_get_exact", "C44_round_trip", "C44_construct", "C44_wrong_precision", "C44_get_wide", "C44_get_narrow", "C44_get_narrow_positive_partial", "C44_get_narrow_directed_refuted", "C44_get_exact_31_refuted", "C44_ieee_get_exact", "C44_ieee_round_trip"], "note": "Round trip, construction and get hold for wE<=30, wF<=128 relative to the MPFR contract in MpfrLib.v. Refuted: get with a directed mode rounds negative values the wrong way; at wE=31 the largest numbers read as infinity."},
 {"property": "C45", "status": "proved", "theorems": ["C45_within_1ulp_is_adjacency"], "note": ""},
 {"property": "C46", "status": "proved", "theorems": ["C46_ieee_equals", "C46_ieee_class_tests"], "note": ""},
 {"property": "C47", "status": "proved", "theorems": ["C47_random_takes_top_bits", "C47_random_reaches_every_value"], "note": ""},
 {"property": "C48", "status": "proved", "theorems": ["C48_lut_returns_initialiser"], "note": ""},
 {"property": "C49", "status": "partial", "theorems": ["C49_ctLog2Ceil_digits", "C49_ctLog2Ceil_is_ceiling_refuted"], "note": "It is the number of binary digits; as a ceiling of the logarithm it is refuted at every power of two."},
 {"property": "C50", "status": "proved", "theorems": ["C50_period", "C50_samples_distinct", "C50_every_state"], "note": "Period exactly 2^32; skips injective and onto."},
 {"property": "C51", "status": "proved", "theorems": ["C51_period_minstd", "C51_period_2y32m5", "C51_samples_distinct_2y32m5", "C51_samples_distinct_minstd", "C29_never_zero"], "note": "Period exactly M-1 for both shipped generators; primality of the moduli and the factors of M-1 are checked by trial division inside the kernel."},
 {"property": "C52", "status": "proved", "theorems": ["C52_create", "C52_rotation", "C52_for_each", "C52_map_reduce"], "note": "Create, rotation, for_each and map_reduce."},
 {"property": "C53", "status": "partial", "theorems": ["C53_newton_faithful", "C53_direct_faithful", "C53_direct_correctly_rounded", "C53_direct_long_input_refuted", "C53_newton_narrow_refuted", "C53_inv_faithful"], "note": "Faithful for every normal input in range, 7 to 62 result bits (Newton) or at most 50 (direct); inv_direct correctly rounded when the input fraction is at most one bit longer than the result. Refuted for longer inputs of inv_direct; inv_table_newton does not compile for narrow formats."},
 {"property": "C54", "status": "proved", "theorems": ["C54_ref_mul", "C54_ref_add", "C54_ref_div", "C54_ref_fma", "C54_ref_square", "C54_ref_inv", "C54_ref_convert", "C54_ref_neg", "C54_ref_ldexp", "C54_ieee_ref_mul", "C54_ieee_ref_add"], "note": "Relative to the MPFR contract in MpfrLib.v (documented semantics, default exponent range)."},
 {"property": "C55", "status": "partial", "theorems": ["C55_normal_partial", "C55_exact_partial", "C55_special", "C55_infinity_refuted", "C55_negative_zero_refuted", "C55_wide_refuted", "C55_round_trip_partial"], "note": "Truncation and exactness for wF<=31 and normal doubles. Refuted: infinities become NaN, -0 becomes +0, wF>=32 loses the fraction or is undefined."},
 {"property": "C56", "status": "partial", "theorems": ["C56_nearest", "C56_exact", "C56_word_exact", "C56_word_nearest", "C56_word_nearest_refuted", "C56_nearest_real"], "note": "Nearest for numbers (relative to the MPFR contract) and for words up to 64 bits. Refuted for words of 65 bits and more: it rounds twice."},
 {"property": "C57", "status": "proved", "theorems": ["C57_mul", "C57_div", "C57_add", "C57_convert", "C57_ieee_mul", "C57_ieee_div", "C57_ieee_add", "C57_ref_fma", "C57_error"], "note": "Uses the standard library axioms of the real numbers. add needs dual_ok_width: the widths the dual-path adder handles (see C04); mul, div and convert the widths of C01, C03, C18."},
 {"property": "C58", "status": "proved", "theorems": ["C58_f32_add", "C58_f64_add", "C58_f32_mul", "C58_f64_mul"], "note": "For every width of uint_fast32_t from 32 up. NaN results are NaN; which NaN is not part of the claim."},
 {"property": "C59", "status": "proved", "theorems": ["C59_f32_compare", "C59_f64_compare"], "note": ""},
 {"property": "C60", "status": "proved", "theorems": ["C60_f32_div", "C60_f64_div"], "note": "As C58."},
 {"property": "C61", "status": "proved", "theorems": ["C61_f32_add", "C61_f32_mul", "C61_f32_div", "C61_f32_compare", "C61_f64_add", "C61_f64_mul", "C61_f64_div", "C61_f64_compare"], "note": "Uses the standard library axioms of the real numbers."},
 {"property": "C62", "status": "partial", "theorems": ["C62_limits_partial", "C62_limits_refuted"], "note": "With NDEBUG; without it each function stops at assert(0). Refuted: max, lowest, epsilon and quiet_NaN."},
 {"property": "C63", "status": "proved", "theorems": ["C63_sum_value", "C63_sum_error", "C63_dot_product", "C63_wrapper_operators", "C63_wrapper_conversions"], "note": "The error of the dot product is against the inputs as the library reads them (denormals are zeros); the sum covers denormals."},
 {"property": "C64", "status": "partial", "theorems": ["C64_mat_mul_full", "C64_wider_exponent_refuted", "C64_mat_mul_round", "C64_mat_mul_softfloat", "C64_dot_par4_full", "C64_dot_par4_round", "C64_dot_par4_softfloat"], "note": "Refuted: traits whose accumulator has a wider exponent than the operands stop at an assertion in mul (full and round add_mul). Everything else proved."},
 {"property": "C65", "status": "partial", "theorems": ["C65_flopoco_exact", "C65_ieee_exact", "C65_single_exact", "C65_double_exact", "C65_flopoco_nan_refuted", "C65_ieee_nan_refuted", "C65_single_nan_refuted", "C65_double_nan_refuted", "C65_flopoco_passes", "C65_ieee_passes", "C65_single_passes", "C65_double_passes"], "note": "Without NaN: proved in full for all four policies. With NaN refuted: the reference comparison calls two NaN equal, so correct operators are reported as failing. The library's FloPoCo operators pass when infinities of the same sign are the same word (C11)."},
 {"property": "C66", "status": "partial", "theorems": ["C66_flopoco_self_test_partial", "C66_ieee_self_test_partial", "C66_single_self_test_partial", "C66_double_self_test_partial", "C66_flopoco_inputs", "C66_ieee_inputs", "C66_flopoco_random_refuted", "C66_ieee_random_refuted", "C66_single_random_refuted", "C66_double_random_refuted", "C66_narrow_refuted"], "note": "Proved for E>=4 and up to 136+4F inputs (the default 100 included), any random draw. Refuted beyond: the draw 0/0 puts NaN among the inputs. Refuted for narrow formats: an input overflows and the constructor throws."},
 {"property": "C67", "status": "partial", "theorems": ["C67_add_sub", "C67_mul", "C67_bitwise", "C67_bitwise_negative_int", "C67_compare", "C67_compare_int", "C67_shift", "C67_slice", "C67_concat", "C67_of_int", "C67_to_numbers", "C67_text", "C67_checked_cast", "C67_parts", "C67_pads", "C67_resize", "C67_carries", "C67_concat_array", "C67_software", "C67_of_mpz_partial", "C67_of_mpz_refuted", "C67_zero_width", "C67_zero_width_refuted", "C67_empty_top_slice_refuted", "C67_or_int_refuted", "C67_bool"], "note": "Proved for widths of at least one bit, unbounded above, over the contract of HlsInt.v. Refuted: construction from mpz above an unsigned long (high bits lost), zero-width comparison and multiplication (og<0>() holds a 1), the empty slice above the top bit (aborts over ap_uint), or with an all-ones int (aborts in software only)."},
 {"property": "C68", "status": "partial", "theorems": ["C68_four", "C68_eight", "C68_product", "C68_mul_program_partial", "C68_mul_program_refuted"], "note": "Sums and products proved. Refuted: the multiplier program as written, whose constant 0x5678CC does not fit its 17 bits, so the program aborts instead of printing."},
 {"property": "C69", "status": "partial", "theorems": ["C69_classes", "C69_disabled_partial", "C69_disabled_refuted", "C69_reaches_all"], "note": "Proved for every draw above zero. Refuted: a draw of exactly zero delivers a positive zero even when that class is disabled."},
 {"property": "C70", "status": "partial", "theorems": ["C70_dot2_reference_partial", "C70_dot2_reference_refuted", "C70_dot2_test_passes_partial", "C70_dot2_test_passes_refuted", "C70_exhaustive_walk", "C70_exhaustive_refuted", "C70_dot4_reference_partial", "C70_dot4_reference_refuted", "C70_dot4_reference_eleven_refuted", "C70_dot4_reference_wide_refuted", "C70_dot4_test_decides", "C70_dot4_test_passes_partial", "C70_dot4_test_passes_refuted", "C70_dot4_exhaustive_decides"], "note": "Two-term reference proved for up to ten exponent bits, or from twelve fraction bits; four-term reference proved for every format it compiles for except eleven exponent bits with at most five fraction bits, where it is refuted. Refuted: wider exponents with short fractions (infinite reference), a draw of zero (the test aborts), the two-term exhaustive test (its comparison is inverted), four-term products far apart (its assertion aborts), formats beyond double (does not compile), and the four-term self-test in eight of its fourteen formats: it accepts exactly when the hardware rounds the drawn operands right, and there it does not for some draws."},
 {"property": "C71", "status": "partial", "theorems": ["C71_operands", "C71_mul_test_decides", "C71_div_test_decides", "C71_add_test_decides", "C71_add_single_test_decides", "C71_convert_test_decides", "C71_nan_rejected_refuted", "C71_mul_passes", "C71_div_passes", "C71_add_dual_passes", "C71_add_single_passes", "C71_convert_passes", "C71_fma_passes_partial", "C71_fma_passes_refuted", "C71_inv_newton_passes", "C71_inv_direct_passes", "C71_inv_tests_detect_refuted"], "note": "Proved: the operands, exact acceptance of the multiplier, divider, adder and conversion tests, and that the library passes for every draw. Refuted: the neighbour tests accept a function that always returns NaN; test_fma reads past the end of its second list when the second fraction is shorter than the first; the reciprocal tests pass for every draw although the functions are wrong on a whole binade."},
 {"property": "C72", "status": "partial", "theorems": ["C72_sum_array", "C72_dot_product", "C72_sum_vec4", "C72_dot_product_u2", "C72_dot_product_u2_value", "C72_sum_vec4_float", "C72_odd_length_refuted", "C72_uninitialised_refuted", "C72_wrapper_u2_refuted", "C72_mmm_refuted", "C72_mmm_partial", "C72_mmm_value", "C72_mmm_u2_value"], "note": "Sums and dot products proved, over the type each kernel works with. Refuted: the matrix products (index r*i+c for i*n+c: wrong for every size from two on, what they compute is proved), kernels over float with an uninitialised accumulator, kernels over the wrapper that convert from int, odd lengths of the unrolled kernels (assertion)."},
 {"property": "C73", "status": "partial", "theorems": ["C73_mul_every_back_end", "C73_add_every_back_end", "C73_div_every_back_end", "C73_comparisons_every_back_end", "C73_convert_every_back_end", "C73_add_dual_every_back_end", "C73_fma_every_back_end", "C73_dot2_every_back_end", "C73_dot4_every_back_end", "C73_mul_words_refuted", "C73_add_words_refuted", "C73_add_dual_words_refuted", "C73_fma_words_refuted", "C73_dot_words_refuted", "C73_add_ac_refuted", "C73_div_ac_refuted", "C73_convert_ac_refuted", "C73_dual_fma_ac_refuted", "C73_dot_ac_refuted"], "note": "Multiplication, addition (add_single), division, the dual-path adder, the fused multiply-add, the two dot products, the six comparisons, convert and neg: proved on all three back ends, within the widths the back end has. Refuted: on machine words a product or aligned sum of more than 128 bits does not compile although the format fits, and so not the fused multiply-add of doubles, nor the four-term dot product of singles; on ac_int without a conversion to int the adders, the fused multiply-add, the dot products, the divider and a conversion to a narrower exponent do not compile."},
 {"property": "C74", "status": "partial", "theorems": ["C74_operator_le_is_sound", "C74_add_partial", "C74_add_single_partial", "C74_mul_partial", "C74_square_partial", "C74_div_partial", "C74_div_divisor_partial", "C74_infinities_refuted", "C74_convert_partial", "C74_convert_refuted", "C74_promote", "C74_neg_partial", "C74_nextup_partial", "C74_nextup_refuted", "C74_fma_addend_partial", "C74_fma_factor_partial", "C74_ieee_add_partial", "C74_ieee_mul", "C74_ieee_div"], "note": "Proved on the decoded data for both adders, mul, square, div, convert, promote, neg, nextup, fma and the IEEE operators. Refuted in terms of operator <= when both results are the same infinity, for nextup of the two zeros, and for convert to a shorter fraction at the same exponent width (a zero with unused bits set becomes infinity). The adders and fma at the widths they handle (C04, C05)."},
 {"property": "C75", "status": "partial", "theorems": ["C75_add_partial", "C75_mul", "C75_div", "C75_convert_partial", "C75_fma_partial", "C75_ieee_partial", "C75_sterbenz_partial", "C75_difference_is_zero_partial", "C75_lost_difference_refuted", "C75_add_zero_partial", "C75_mul_one", "C75_div_one", "C75_power_of_two", "C75_doubling_partial"], "note": "Exact results are returned by add, mul, div, convert, fma and the IEEE operators; Sterbenz subtraction, identities with 0 and 1, powers of two. That x - y is zero only if x = y is refuted near the bottom of the range of every format (no subnormals) and proved above it. The adder and fma at the widths they handle (C04, C21)."},
 {"property": "C76", "status": "partial", "theorems": ["C76_fast_two_sum_partial", "C76_two_sum_partial", "C76_two_sum_refuted", "C76_two_product_partial"], "note": "Fast2Sum, 2Sum and 2Product written with add, neg, mul and fma return the exact rounding error whenever the sum or product is finite; 2Sum also needs y other than the largest number, and C76_two_sum_refuted shows that it fails otherwise. Partial: the operands must keep the stated distance from the bottom of the range (the formats have no subnormal numbers), and the widths are those of C04."},
 {"property": "C77", "status": "proved", "theorems": ["C77_f32_add_order", "C77_f32_mul_order", "C77_f32_div_order", "C77_f32_add_exact", "C77_f32_mul_exact", "C77_f32_div_exact", "C77_f32_sterbenz", "C77_f32_difference_zero", "C77_f32_fast_two_sum", "C77_f32_two_sum", "C77_f32_two_sum_refuted", "C77_f64_add_order", "C77_f64_mul_order", "C77_f64_div_order", "C77_f64_add_exact", "C77_f64_mul_exact", "C77_f64_div_exact", "C77_f64_sterbenz", "C77_f64_difference_zero", "C77_f64_fast_two_sum", "C77_f64_two_sum", "C77_f64_two_sum_refuted"], "note": "Order, exact results, Sterbenz subtraction, differences and the two summation algorithms for float32_t and float64_t; stated with the library's own comparisons. 2Sum is proved for every pair with a finite sum unless y is the largest number or its negative; the refutations show that this exception is needed."},
 {"property": "C78", "status": "proved", "theorems": ["C78_f32_add", "C78_f32_mul", "C78_f32_div", "C78_f32_compare", "C78_f64_add", "C78_f64_mul", "C78_f64_div", "C78_f64_compare", "C78_normal_results_agree_refuted"], "note": "The ieee_on_flopoco operators equal SoftFloat with operands and results flushed to zero, for all words of binary32 and binary64; plain agreement on normal results is refuted at the smallest normal number."},
 {"property": "C79", "status": "partial", "theorems": ["C79_flopoco_format", "C79_ieee_format", "C79_flopoco_program", "C79_ieee_program", "C79_any_draw_refuted", "C79_one_small_draw_refuted"], "note": "Proved for draws that are zero or large enough for their products to stay in range (2^-15 for the programs as written, 2^-k with 2k <= bias in general). Refuted for smaller draws, which the generator can return: an underflow is reported as a mistake, or the program ends with an exception."},
 {"property": "C80", "status": "partial", "theorems": ["C80_mul_div_cores", "C80_mul_ratio_cores", "C80_add_single_cores", "C80_add_single_v3_cores", "C80_add_single_v4_cores_refuted", "C80_add_dual_cores", "C80_ieee_add_cores"], "note": "Settled for every generated format: multipliers and dividers are right everywhere; for each adder the exact set of right formats is proved, so the claim is refuted for the others. The flopoco mul and div templates include a header that only declares mul and div; they are modelled with the definitions of fp_flopoco_primitives.hpp added. The native cores (C++ float operators) and fp_div_flopoco_v3 (does not compile) are not modelled; the softfloat cores are C58-C60."},
 {"property": "C81", "status": "partial", "theorems": ["C81_f32_nan_words", "C81_f64_nan_words", "C81_nan_quiet_with_payload", "C81_word_unique", "C81_commutative_words", "C81_f32_operand_nan_back_partial", "C81_f64_operand_nan_back_partial", "C81_nan_sign_refuted"], "note": "Which NaN comes back is proved to the bit for all operands of the six functions, with quietness, payload and bitwise commutativity. That a NaN operand comes back with its sign is refuted for the NaN without payload against an infinity and proved otherwise."},
 {"property": "C82", "status": "proved", "theorems": ["C82_mul_through_wider", "C82_div_through_wider", "C82_add_through_wider", "C82_add_dual_through_wider", "C82_add_one_bit_short_refuted"], "note": "Products and quotients for all formats with G >= 2F+1, sums for G >= 2F+2 and any adders that are right; the refuted theorem shows that 2F+2 cannot be lowered for sums."},
 {"property": "C83", "status": "partial", "theorems": ["C83_count_leading_zeros", "C83_jamming_shifts", "C83_wide_shifts", "C83_extra_shifts", "C83_wide_arithmetic", "C83_mul64To128", "C83_reciprocal_partial"], "note": "Everything documented is proved except the last decimal of the error bound of the reciprocal: 2.008 units instead of the documented 2.006."},
 {"property": "C84", "status": "proved", "theorems": ["C84_single", "C84_double", "C84_any_product", "C84_any_reciprocal"], "note": "Word for word, NaNs included. softfloat_mul64To128 is declared but not part of the repository: any function meeting its comment."},
 {"property": "C85", "status": "partial", "theorems": ["C85_flopoco_flags", "C85_ieee_flags", "C85_softfloat_flags", "C85_iec559_refuted"], "note": "Seven flags proved for every format of the three families. Refuted: the SoftFloat types claim is_iec559 and deny the signalling NaNs that requires, and that they have."},
 {"property": "C86", "status": "partial", "theorems": ["C86_bit_heap_sum", "C86_row_heap_sum", "C86_bit_heap_test", "C86_row_heap_test", "C86_bit_heap_four", "C86_row_heap_four", "C86_bit_heap_status_refuted", "C86_row_heap_status_refuted"], "note": "Sums through bit heaps and row heaps proved for any widths, order and brackets, and the two test programs print nothing. Refuted: that a mistake makes them fail; they print it and leave with status 0."},
 {"property": "C87", "status": "proved", "theorems": ["C87_exact", "C87_compiles", "C87_outside", "C87_shift", "C87_callN"], "note": "Every program of sums, products, constant shifts, constants and ranged variables over intval; callN for any length. The macros of fixval.hpp are read as meant (see Fixval.v)."},
 {"property": "C88", "status": "proved", "theorems": ["C88_f32_add", "C88_f64_add", "C88_f32_mul", "C88_f64_mul", "C88_f32_div", "C88_f64_div", "C88_delivered", "C88_odd_without_macro", "C88_odd_refuted", "C88_f32_add_real", "C88_f64_add_real", "C88_f32_mul_real", "C88_f64_mul_real", "C88_f32_div_real", "C88_f64_div_real"], "note": "All six modes for every pair of words, against an integer specification and (the _real theorems) Flocq's roundings of real numbers. softfloat.h documents that odd needs SOFTFLOAT_ROUND_ODD, which nothing defines: C88_odd_refuted shows that the hypothesis cannot be dropped. The flags raised are not modelled."},
 {"property": "C89", "status": "proved", "theorems": ["C89_sqrt", "C89_in_range", "C89_exact_square", "C89_special"], "note": "Relative to the MPFR contract in MpfrLib.v, whose integer square root is proved to round as the real one."},
 {"property": "C90", "status": "partial", "theorems": ["C90_class", "C90_class_order", "C90_nextafter_up", "C90_nextafter_down_partial", "C90_nextafter_down_refuted", "C90_nextafter_throws"], "note": "All but nextafter towards -inf on positive powers of two (other than the smallest number) and negative numbers with an all-ones fraction (other than the lowest): there the code is wrong on every one of them (C90_nextafter_down_refuted), the finding of C15."},
 {"property": "C91", "status": "proved", "theorems": ["C91_f32_add", "C91_f32_mul", "C91_f32_div", "C91_f32_interval_add", "C91_f32_interval_mul", "C91_f32_interval_div", "C91_f64_add", "C91_f64_mul", "C91_f64_div", "C91_f64_interval_add", "C91_f64_interval_mul", "C91_f64_interval_div"], "note": "From C88; the interval theorems are about a client that calls the library in the two directed modes. The delivered library has the modes but nothing in it selects one other than near_even."},
 {"property": "C92", "status": "proved", "theorems": ["C92_f32_add", "C92_f32_mul", "C92_f32_div", "C92_f32_add_no_underflow", "C92_f32_inexact", "C92_f32_cmp", "C92_f64_add", "C92_f64_mul", "C92_f64_div", "C92_f64_add_no_underflow", "C92_f64_inexact", "C92_f64_cmp", "C92_inexact_refuted"], "note": "softfloat_raiseFlags is a stub in this code base; the model records the flags of each call. The statement that would set inexact for every rounded result is commented out in the source, so inexact as IEEE 754 defines it is refuted."},
 {"property": "C93", "status": "proved", "theorems": ["C93_f32_add", "C93_f32_mul", "C93_f32_div", "C93_f64_add", "C93_f64_mul", "C93_f64_div"], "note": "From C58, C60, C61 and C92."},
 {"property": "C94", "status": "proved", "theorems": ["C94_f32_add", "C94_f32_mul", "C94_f32_div", "C94_f32_add_no_underflow", "C94_f32_inexact", "C94_f32_near", "C94_f64_add", "C94_f64_mul", "C94_f64_div", "C94_f64_add_no_underflow", "C94_f64_inexact", "C94_f64_near"], "note": "The word is that of C88; in the default mode word and flags are those of C92. Inexact is requested less often than IEEE 754 asks, as in C92 (C92_inexact_refuted)."},
 {"property": "C95", "status": "proved", "theorems": ["C95_f32_add", "C95_f32_mul", "C95_f32_div", "C95_f64_add", "C95_f64_mul", "C95_f64_div", "C95_f32_add_overflow", "C95_f32_mul_overflow", "C95_f32_div_overflow", "C95_f64_add_overflow", "C95_f64_mul_overflow", "C95_f64_div_overflow", "C95_directed_unit_needed", "C95_underflow_needed"], "note": "From C88 and C94."},
 {"property": "C96", "status": "proved", "theorems": ["C96_f32_add_order", "C96_f32_mul_order", "C96_f32_div_order", "C96_f32_add_exact", "C96_f32_mul_exact", "C96_f32_div_exact", "C96_f64_add_order", "C96_f64_mul_order", "C96_f64_div_order", "C96_f64_add_exact", "C96_f64_mul_exact", "C96_f64_div_exact"], "note": "From C88. C77 has the default mode, with infinities."}
]}
