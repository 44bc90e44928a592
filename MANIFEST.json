{
 "claims": [
  {
   "property": "C01",
   "status": "proved",
   "theorems": [
    "C01_canonical",
    "C01_eq_is_value_equality",
    "C01_every_number_has_a_canonical_form"
   ],
   "note": "all listed operations; value equality is limb equality"
  },
  {
   "property": "C02",
   "status": "proved",
   "theorems": [
    "C02_add_exact",
    "C02_add_u32_exact"
   ],
   "note": ""
  },
  {
   "property": "C03",
   "status": "proved",
   "theorems": [
    "C03_sub_exact",
    "C03_sub_panics",
    "C03_sub_u32_exact",
    "C03_sub_u32_panics",
    "C03_abs_diff",
    "C03_abs_diff_u32"
   ],
   "note": ""
  },
  {
   "property": "C04",
   "status": "proved",
   "theorems": [
    "C04_mul_exact",
    "C04_mul_u32_exact",
    "C04_mul_pow2_exact"
   ],
   "note": "schoolbook and Karatsuba paths, every size"
  },
  {
   "property": "C05",
   "status": "proved",
   "theorems": [
    "C05_div_exact",
    "C05_div_floor",
    "C05_div_zero_panics"
   ],
   "note": "quotient-estimate recursion terminates for every pair"
  },
  {
   "property": "C06",
   "status": "partial",
   "theorems": [
    "C06_div_u32",
    "C06_div_u32_zero",
    "C06_rem_u32",
    "C06_rem_pow2",
    "C06_rem_u32_mut_partial",
    "C06_rem_u32_mut_refuted"
   ],
   "note": "rem_u32_mut is refuted by a witness (u32 overflow) and proved on its valid domain; rem_u32 needs fewer than 2^32 limbs; the rest is proved in full"
  },
  {
   "property": "C07",
   "status": "proved",
   "theorems": [
    "C07_comparisons",
    "C07_comparisons_u32",
    "C07_is_zero_one",
    "C07_total_order"
   ],
   "note": ""
  },
  {
   "property": "C08",
   "status": "proved",
   "theorems": [
    "C08_from_exact",
    "C08_to_exact",
    "C08_round_trip"
   ],
   "note": ""
  },
  {
   "property": "C09",
   "status": "proved",
   "theorems": [
    "C09_print_dec",
    "C09_print_radix",
    "C09_round_trip_dec",
    "C09_round_trip_radix"
   ],
   "note": "decimal printing for fewer than 2^32 limbs (16 GiB)"
  },
  {
   "property": "C10",
   "status": "partial",
   "theorems": [
    "C10_from_string_decides",
    "C10_value_nonneg",
    "C10_from_string_total",
    "C10_empty_rejected",
    "C10_foreign_character_rejected",
    "C10_decimal_grammar_accepted",
    "C10_prefixed_grammar_partial",
    "C10_documented_grammar_refuted"
   ],
   "note": "parser decided exactly by the specification uread; the documented grammar also derives 0x_ which the code rejects (refuted theorem)"
  },
  {
   "property": "C11",
   "status": "proved",
   "theorems": [
    "C11_shift",
    "C11_slice_right"
   ],
   "note": ""
  },
  {
   "property": "C12",
   "status": "partial",
   "theorems": [
    "C12_bigint_pow_partial",
    "C12_pow_u32_partial",
    "C12_pow_u32_refuted",
    "C12_pow2_exact"
   ],
   "note": "proved for every exponent below 2^31; exponents from 2^31 on are refuted (always panic)"
  },
  {
   "property": "C13",
   "status": "proved",
   "theorems": [
    "C13_gcd_bigint",
    "C13_gcd",
    "C13_gcd_i32",
    "C13_gcd_i32_min_panics"
   ],
   "note": "gcd_ubi, gcd_bi for all numbers; gcd_i32 for all but the minimum (which panics), as the property says"
  },
  {
   "property": "C14",
   "status": "partial",
   "theorems": [
    "C14_bigint_sqrt_partial",
    "C14_sqrt_partial",
    "C14_sqrt_refuted"
   ],
   "note": "floor square root proved for all n whose top two limbs are below 18428729675200069632; refuted (panic) for an infinite family above"
  },
  {
   "property": "C15",
   "status": "proved",
   "theorems": [
    "C15_bigint_log2",
    "C15_log2",
    "C15_log2_accurate",
    "C15_log2_accurate_zero"
   ],
   "note": "log2 for fewer than 2^58 limbs, log2_accurate for fewer than 2^27 limbs, with an upper error bound too"
  },
  {
   "property": "C16",
   "status": "proved",
   "theorems": [
    "C16_factorial",
    "C16_fibonacci"
   ],
   "note": ""
  },
  {
   "property": "C17",
   "status": "partial",
   "theorems": [
    "C17_is_prime_partial",
    "C17_is_prime_refuted"
   ],
   "note": "proved where sqrt is; refuted at 2^64-1 (panic)"
  },
  {
   "property": "C18",
   "status": "partial",
   "theorems": [
    "C18_prime_factorial_partial",
    "C18_prime_factorial_zero",
    "C18_prime_factorial_refuted",
    "C18_prime_factorial_refuted_ex"
   ],
   "note": "proved for every n without a huge rough cofactor; refuted (panic) exactly on the others"
  },
  {
   "property": "C19",
   "status": "partial",
   "theorems": [
    "C19_add_sub_mul",
    "C19_add_sub_mul_i32_partial",
    "C19_i32_min_refuted",
    "C19_neg_abs_pow2",
    "C19_zero_is_not_negative",
    "C19_predicates"
   ],
   "note": "all big-number forms proved in full; _i32 forms proved for every i32 but the minimum, where they are refuted (panic)"
  },
  {
   "property": "C20",
   "status": "partial",
   "theorems": [
    "C20_div_rem",
    "C20_unique",
    "C20_div_zero_panics",
    "C20_div_rem_i32_partial",
    "C20_i32_min_refuted",
    "C20_rem_i32_mut_partial",
    "C20_rem_i32_mut_refuted",
    "C20_rem_pow2"
   ],
   "note": "div/rem proved in full; _i32 forms refuted at i32::MIN and (rem_i32_mut) for large divisors, proved elsewhere"
  },
  {
   "property": "C21",
   "status": "partial",
   "theorems": [
    "C21_comparisons",
    "C21_comparisons_i32_partial",
    "C21_eq_i32_partial",
    "C21_eq_i32_refuted",
    "C21_i32_min_refuted"
   ],
   "note": "big-number comparisons proved in full; eq_i32/neq_i32 refuted for |self| >= 2^32 of the same sign; _i32 forms refuted at i32::MIN"
  },
  {
   "property": "C22",
   "status": "partial",
   "theorems": [
    "C22_from_partial",
    "C22_from_min_refuted",
    "C22_to_i32_i64",
    "C22_to_i128_partial",
    "C22_to_i128_refuted",
    "C22_ubi",
    "C22_round_trip"
   ],
   "note": "to_i32, to_i64, to_ubi, from_ubi proved in full; from_iN refuted at the minimum; to_i128 refuted at the minimum"
  },
  {
   "property": "C23",
   "status": "proved",
   "theorems": [
    "C23_print",
    "C23_parse_decides",
    "C23_minus_is_negation",
    "C23_round_trip"
   ],
   "note": "decimal printing for fewer than 2^32 limbs"
  },
  {
   "property": "C24",
   "status": "partial",
   "theorems": [
    "C24_canonical_unique",
    "C24_zero_is_0_over_1",
    "C24_from_denom_and_numer",
    "C24_from_denom_and_numer_i32_partial",
    "C24_from_denom_and_numer_i32_min_refuted",
    "C24_constructors",
    "C24_predicates"
   ],
   "note": "every constructor and operation yields canonical ratios; from_denom_and_numer_i32 panics on i32::MIN (refuted), proved elsewhere"
  },
  {
   "property": "C25",
   "status": "partial",
   "theorems": [
    "C25_add_sub_mul",
    "C25_div",
    "C25_bigint_operand",
    "C25_i32_operand_partial",
    "C25_i32_min_refuted",
    "C25_neg_abs_reci",
    "C25_pow_i32_partial",
    "C25_pow_i32_min_refuted",
    "C25_common_denom"
   ],
   "note": "all operations exact; _i32 forms and pow_i32 panic on i32::MIN (refuted) and are proved for every other i32"
  },
  {
   "property": "C26",
   "status": "partial",
   "theorems": [
    "C26_panics_partial",
    "C26_div_by_zero_refuted"
   ],
   "note": "div_bi and reci panic; div, div_i32 and their _mut forms return +-1/0 for a non-zero dividend (refuted)"
  },
  {
   "property": "C27",
   "status": "partial",
   "theorems": [
    "C27_order",
    "C27_one",
    "C27_order_i32_partial",
    "C27_eq_i32_refuted"
   ],
   "note": "all comparisons proved; _i32 forms panic on i32::MIN and eq_i32 panics on integers of 2^32 and more (refuted)"
  },
  {
   "property": "C28",
   "status": "proved",
   "theorems": [
    "C28_truncate",
    "C28_floor",
    "C28_round"
   ],
   "note": ""
  },
  {
   "property": "C29",
   "status": "partial",
   "theorems": [
    "C29_parse_partial",
    "C29_plain_decimal",
    "C29_early_underscore_refuted",
    "C29_min_exponent_refuted",
    "C29_integer_round_trip_partial",
    "C29_fraction_round_trip_refuted"
   ],
   "note": "The parser is decided by the specification rread for all texts under 2^32 characters without an early underscore and without exponent -2^31. Refuted: '0_.5' is rejected, '0e-2147483648' panics, and the text printed for any non-integer ('n/d') is rejected by from_string."
  },
  {
   "property": "C30",
   "status": "proved",
   "theorems": [
    "C30_from_float",
    "C30_inspect"
   ],
   "note": "from_ieee754 and inspect_ieee754, f32 and f64, all bit patterns"
  },
  {
   "property": "C31",
   "status": "partial",
   "theorems": [
    "C31_to_float_partial",
    "C31_zero",
    "C31_overflow_is_error_partial",
    "C31_lost_carry_refuted",
    "C31_beyond_range_never_finite",
    "C31_infinity_refuted"
   ],
   "note": "Nearest float (half ulp; 3/4 ulp for subnormals) whenever the mantissa carry is not lost, error for |x| >= 2^(bias+2). Refuted: a carry out of the mantissa with an odd exponent field is lost (all such x), and values in [2^(bias+1), 2^(bias+2)) or rounding up to 2^(bias+1) can give infinity or NaN instead of the promised error. Error texts not modelled; 2^30-bit operands excluded."
  },
  {
   "property": "C32",
   "status": "proved",
   "theorems": [
    "C32_round_trip"
   ],
   "note": "all finite f32 and f64 patterns"
  },
  {
   "property": "C33",
   "status": "proved",
   "theorems": [
    "C33_shrink"
   ],
   "note": "canonical result, size limit exactly reported, relative error at most 2^-64"
  },
  {
   "property": "C34",
   "status": "partial",
   "theorems": [
    "C34_sqrt_iter_partial",
    "C34_negative_refuted"
   ],
   "note": "relative error of the square at most 3/2^(16(k+1)); domain restricted by the seed limit of UBigInt::sqrt (C14); the documented sqrt(abs(x)) is refuted for negative x"
  },
  {
   "property": "C35",
   "status": "partial",
   "theorems": [
    "C35_e_iter",
    "C35_increasing",
    "C35_e_error"
   ],
   "note": "exact value, increments and distance to the real e for k < 2^31 - 20; the i32 casts beyond that count are not covered"
  },
  {
   "property": "C36",
   "status": "proved",
   "theorems": [
    "C36_pi_iter",
    "C36_ln2_iter",
    "C36_pi_error",
    "C36_ln2_error",
    "C36_increasing"
   ],
   "note": "exact partial sums inside the tables, panic beyond, increasing, distance to the real constants"
  },
  {
   "property": "C37",
   "status": "partial",
   "theorems": [
    "C37_exp_iter",
    "C37_exp_zero",
    "C37_ln_iter",
    "C37_ln_domain",
    "C37_log_iter",
    "C37_log_base_one_refuted",
    "C37_pow_iter",
    "C37_exp_error",
    "C37_ln_error"
   ],
   "note": "exact values for every argument; error of exp_iter (k >= 2) and ln_iter against the real functions; log_iter with base 1 is refuted (value with denominator zero); numerator and denominator of fewer than 2^27 limbs for ln_iter"
  },
  {
   "property": "C38",
   "status": "proved",
   "theorems": [
    "C38_add",
    "C38_mul_k",
    "C38_mul",
    "C38_transpose",
    "C38_identity",
    "C38_generate",
    "C38_from_vec",
    "C38_mul_assoc",
    "C38_mul_identity",
    "C38_transpose_mul"
   ],
   "note": "all dimensions; entrywise definitions, errors on mismatch, associativity, identity, transposed products"
  },
  {
   "property": "C39",
   "status": "proved",
   "theorems": [
    "C39_determinant",
    "C39_mul",
    "C39_transpose",
    "C39_cofactor",
    "C39_leibniz"
   ],
   "note": "Laplace expansion for every size, and the sum over permutations (mathcomp)"
  },
  {
   "property": "C40",
   "status": "partial",
   "theorems": [
    "C40_inverse_partial",
    "C40_error",
    "C40_one",
    "C40_one_refuted"
   ],
   "note": "two-sided inverse for every size from 2 on; size 1 is refuted: the result is always [[1]]"
  },
  {
   "property": "C41",
   "status": "partial",
   "theorems": [
    "C41_calc",
    "C41_from_vec",
    "C41_canonical",
    "C41_mul_k",
    "C41_mul_k_mut",
    "C41_differentiate",
    "C41_differentiate_mut",
    "C41_mut_refuted",
    "C41_newton",
    "C41_newton_refuted"
   ],
   "note": "evaluation, stripping, scaling, derivative and Newton step proved (derivative for at most 2^31 coefficients); the _mut forms agree only on canonical polynomials (refuted otherwise); the Newton step at a critical point returns denominator zero (refuted)"
  },
  {
   "property": "C42",
   "status": "proved",
   "theorems": [
    "C42_from_points",
    "C42_error"
   ],
   "note": "interpolation, uniqueness and errors for every finite list"
  },
  {
   "property": "C43",
   "status": "proved",
   "theorems": [
    "C43_linear",
    "C43_quadratic",
    "C43_quadratic_degenerate",
    "C43_cubic",
    "C43_cubic_degenerate"
   ],
   "note": "including the degenerate cases"
  },
  {
   "property": "C44",
   "status": "partial",
   "theorems": [
    "C44_cmp",
    "C44_injective",
    "C44_sign",
    "C44_neg_abs_partial",
    "C44_neg_abs_refuted",
    "C44_shl",
    "C44_shr",
    "C44_shr_underflow",
    "C44_step",
    "C44_is_integer_partial",
    "C44_is_integer_refuted"
   ],
   "note": "order, sign, shifts and neighbours for all patterns; neg/abs wrong for the one pattern -2^127*2^(-2^48), is_integer wrong from exponent field 2^63 on (both refuted)"
  },
  {
   "property": "C45",
   "status": "partial",
   "theorems": [
    "C45_add_same_sign",
    "C45_sub_opposite_sign",
    "C45_add_opposite_sign_partial",
    "C45_sub_same_sign_partial",
    "C45_sub_exact",
    "C45_sub_self",
    "C45_comm",
    "C45_zero_partial",
    "C45_zero_refuted",
    "C45_carry_refuted",
    "C45_exponent_refuted"
   ],
   "note": "exact rounding toward zero for equal signs, nearest for opposite signs with exponents below 2^32; refuted: lost carry (2^128 - 1/4 gives -2^127), exponents above 2^32"
  },
  {
   "property": "C46",
   "status": "partial",
   "theorems": [
    "C46_mul",
    "C46_mul_relative",
    "C46_mul_exact",
    "C46_comm",
    "C46_zero",
    "C46_underflow",
    "C46_one_partial",
    "C46_one_refuted",
    "C46_mul_i32_partial",
    "C46_mul_i32_short",
    "C46_mul_i32_zero",
    "C46_mul_i32_refuted",
    "C46_mul_i32_panics"
   ],
   "note": "below the exact product by less than four units of the last place; x*1 clears the last bit and mul_i32 panics on some inputs (refuted)"
  },
  {
   "property": "C47",
   "status": "partial",
   "theorems": [
    "C47_div",
    "C47_div_exact",
    "C47_div_short",
    "C47_div_zero",
    "C47_div_i32",
    "C47_div_i32_zero",
    "C47_div_i32_refuted"
   ],
   "note": "least candidate whose product reaches the dividend, within 9 units of the last place, for exponents below 2^36; div_i32 truncates; panics for i32::MIN (refuted)"
  },
  {
   "property": "C48",
   "status": "partial",
   "theorems": [
    "C48_from_int_partial",
    "C48_from_int_refuted",
    "C48_to_unsigned_partial",
    "C48_to_signed_partial",
    "C48_to_int_zero",
    "C48_out_of_range",
    "C48_round_trip",
    "C48_fraction_refuted",
    "C48_min_refuted"
   ],
   "note": "exact and truncating on the stated ranges; refuted: from(i128::MIN) panics, every nonzero number below one panics, -2^127 is refused"
  },
  {
   "property": "C49",
   "status": "partial",
   "theorems": [
    "C49_to_ratio_partial",
    "C49_to_ratio_refuted",
    "C49_from_ratio_partial",
    "C49_from_ratio_carry_refuted",
    "C49_zero",
    "C49_from_ratio_exact",
    "C49_round_trip"
   ],
   "note": "to_ratio exact for exponents below 2^32 (refuted above); from_ratio nearest except where rounding carries (refuted for all of those)"
  },
  {
   "property": "C50",
   "status": "partial",
   "theorems": [
    "C50_from_float",
    "C50_round_trip_partial",
    "C50_to_float_partial",
    "C50_to_float_small",
    "C50_to_float_large_partial",
    "C50_subnormal_refuted",
    "C50_nan_refuted",
    "C50_huge_refuted"
   ],
   "note": "exact from floats; round trip for normal floats; nearest conversion in the normal range; refuted: subnormals, NaN for numbers just above the largest float, exponents of 2^63 and more"
  },
  {
   "property": "C51",
   "status": "partial",
   "theorems": [
    "C51_truncate_partial",
    "C51_floor_partial",
    "C51_ceil_partial",
    "C51_round_partial",
    "C51_frac_partial",
    "C51_huge_refuted"
   ],
   "note": "correct for exponent fields below 2^63 (refuted above), round and frac not for the lowest pattern, frac for exponents below 2^32"
  },
  {
   "property": "C52",
   "status": "partial",
   "theorems": [
    "C52_from_valid",
    "C52_from_zero",
    "C52_from_empty",
    "C52_from_long",
    "C52_from_invalid",
    "C52_from_total",
    "C52_into_from",
    "C52_from_into_partial",
    "C52_zero",
    "C52_into_total_partial",
    "C52_zero_collision_refuted",
    "C52_huge_refuted"
   ],
   "note": "reading is total and exact on every text, writing back gives the canonical text; writing is within 2^-65 relatively and idempotent, for exponent fields below 2^63 and numbers up to the largest code; refuted: the code of zero collides with the smallest positive code, exponent fields from 2^63 are taken for negative"
  },
  {
   "property": "C53",
   "status": "proved",
   "theorems": [
    "C53_bigint_pairs_agree",
    "C53_ratio_pairs_agree",
    "C53_ubig_pairs_agree"
   ],
   "note": "UBigInt, BigInt and Ratio pairs (Ratio i32 forms: all but i32::MIN)"
  },
  {
   "property": "C54",
   "status": "proved",
   "theorems": [
    "C54_constants",
    "C54_constants_error"
   ],
   "note": "also the distances to the real constants"
  },
  {
   "property": "C55",
   "status": "partial",
   "theorems": [
    "C55_ratio_to_primitive_partial",
    "C55_i128_min_refuted"
   ],
   "note": "all twelve types; i128::MIN is rejected although in range (refuted)"
  },
  {
   "property": "C56",
   "status": "proved",
   "theorems": [
    "C56_scientific_notation",
    "C56_scientific_notation_zero"
   ],
   "note": "fewer than 2^58 limbs"
  },
  {
   "property": "C57",
   "status": "partial",
   "theorems": [
    "C57_bigint_to_primitive_partial",
    "C57_ubigint_to_primitive_partial",
    "C57_ubigint_to_usize_refuted",
    "C57_from_primitive_partial",
    "C57_from_primitive_min_refuted"
   ],
   "note": "BigInt: all but i128::MIN; UBigInt: all but usize (refuted above 2^32); From: all but the minimum of i32/i64/isize/i128, which panic (refuted)"
  },
  {
   "property": "C58",
   "status": "proved",
   "theorems": [
    "C58_sin_cos_iter",
    "C58_tan_iter",
    "C58_beyond_table",
    "C58_sin_cos_error"
   ],
   "note": "also the error against the real sine and cosine"
  },
  {
   "property": "C59",
   "status": "partial",
   "theorems": [
    "C59_asin_iter_partial",
    "C59_asin_iter_wraps_refuted",
    "C59_acos_iter",
    "C59_atan_iter",
    "C59_asin_error",
    "C59_acos_error",
    "C59_atan_error"
   ],
   "note": "asin_iter proved up to 643 iterations with its error against the real function, refuted for 644 (wrapping cast)"
  },
  {
   "property": "C60",
   "status": "partial",
   "theorems": [
    "C60_add",
    "C60_add_i32_partial",
    "C60_add_i32_refuted"
   ],
   "note": "add and add_mut proved; add_i32 panics at i32::MIN (refuted), proved elsewhere"
  },
  {
   "property": "C61",
   "status": "partial",
   "theorems": [
    "C61_from_pow2_partial",
    "C61_from_pow2_refuted",
    "C61_ilog2_partial",
    "C61_ilog2_panic",
    "C61_inverse"
   ],
   "note": "exact on the stated range of exponents; outside the exponent wraps (refuted)"
  },
  {
   "property": "C62",
   "status": "partial",
   "theorems": [
    "C62_powi_partial",
    "C62_powi_negative_partial",
    "C62_powi_zero",
    "C62_powi_0",
    "C62_powi_min_refuted"
   ],
   "note": "error bound linear in the exponent while all intermediate exponents are in range; panics for i64::MIN (refuted)"
  },
  {
   "property": "C63",
   "status": "partial",
   "theorems": [
    "C63_sqrt_partial",
    "C63_sqrt_nonpositive",
    "C63_sqrt_refuted",
    "C63_isqrt_partial"
   ],
   "note": "square within 2^-120 for significands up to 2^128 - 2^90 and exponents below 2^35; refuted just below powers of four times four"
  },
  {
   "property": "C64",
   "status": "proved",
   "theorems": [
    "C64_pi",
    "C64_e",
    "C64_ln",
    "C64_sqrt"
   ],
   "note": ""
  },
  {
   "property": "C65",
   "status": "partial",
   "theorems": [
    "C65_log2",
    "C65_log2_partial",
    "C65_log2_sign",
    "C65_domain",
    "C65_ln",
    "C65_ln_partial",
    "C65_carry_refuted"
   ],
   "note": "within 2^-118 + 2^-127 |log2| (ln: 2^-124 |ln|) for exponents below 2^31, without further condition from 2^-128 upwards; below, all logarithms outside bands just above -2^k, inside which the result is positive (refuted)"
  },
  {
   "property": "C66",
   "status": "partial",
   "theorems": [
    "C66_pow2_partial",
    "C66_pow2_integer",
    "C66_small_refuted"
   ],
   "note": "relative error 2^-48 up to magnitude 2^40, except -2^-129 <= x < 0 where it is refuted; exact at integers"
  },
  {
   "property": "C67",
   "status": "partial",
   "theorems": [
    "C67_pow_partial",
    "C67_pow"
   ],
   "note": "relative error 2^-47; unconditional for bases from one and exponents in [0, 2^18], otherwise for results not within 2^-70 of one and bases outside the bands of C65"
  },
  {
   "property": "C68",
   "status": "proved",
   "theorems": [
    "C68_scientific",
    "C68_zero_refuted"
   ],
   "note": "zero prints as 0e-17 for every length"
  },
  {
   "property": "C69",
   "status": "partial",
   "theorems": [
    "C69_approx",
    "C69_to_string",
    "C69_zero",
    "C69_reads_back",
    "C69_nonzero_refuted",
    "C69_length_refuted"
   ],
   "note": "the layout for exponents beyond 9990 is the subject of C85; -0.0005 with six characters prints -0, and exponents of three digits make the text longer than asked for"
  },
  {
   "property": "C70",
   "status": "partial",
   "theorems": [
    "C70_sin_partial",
    "C70_small"
   ],
   "note": "Arguments whose sine is within 2^-79 of +-2^61/20! are not covered by C70_sin_partial: the sum of the cosine series may carry there."
  },
  {
   "property": "C71",
   "status": "partial",
   "theorems": [
    "C71_cos_partial",
    "C71_carry_refuted"
   ],
   "note": "Refuted at one argument near 0.3246 (carry of the last subtraction of cos_iter); proved wherever the cosine is not within 2^-79 of +-2^61/20!."
  },
  {
   "property": "C72",
   "status": "partial",
   "theorems": [
    "C72_tan_partial"
   ],
   "note": "Outside the bands of C70 and C71."
  },
  {
   "property": "C73",
   "status": "partial",
   "theorems": [
    "C73_asin_partial",
    "C73_domain",
    "C73_s2",
    "C73_panic_refuted",
    "C73_minus_one_refuted"
   ],
   "note": "Which arguments panic inside the multiplication by i32 is not characterised."
  },
  {
   "property": "C74",
   "status": "partial",
   "theorems": [
    "C74_acos_partial",
    "C74_domain",
    "C74_panic_refuted"
   ],
   "note": "As for C73."
  },
  {
   "property": "C75",
   "status": "partial",
   "theorems": [
    "C75_atan_partial",
    "C75_plain",
    "C75_domain",
    "C75_carry_refuted"
   ],
   "note": "Arguments with a partial sum within 2^-110 of a power of two, and |x| in (1.414, 1.42), are not covered."
  },
  {
   "property": "C76",
   "status": "partial",
   "theorems": [
    "C76_decimal",
    "C76_long",
    "C76_tiny",
    "C76_base",
    "C76_grammar",
    "C76_bad_exponent",
    "C76_empty",
    "C76_panic_refuted",
    "C76_small_refuted",
    "C76_sign_refuted"
   ],
   "note": "not decided: which texts of 30 digits and more panic; exponents between 2^32 and 2^48"
  },
  {
   "property": "C77",
   "status": "proved",
   "theorems": [
    "C77_ratio_text",
    "C77_approx_text"
   ],
   "note": "texts are read by the specification poly_read of PTxtS.v"
  },
  {
   "property": "C78",
   "status": "proved",
   "theorems": [
    "C78_matrix_text",
    "C78_injective"
   ],
   "note": "texts are read by the specification mat_read of PTxtS.v"
  },
  {
   "property": "C79",
   "status": "proved",
   "theorems": [
    "C79_generic",
    "C79_to_vec",
    "C79_complex",
    "C79_complex_try"
   ],
   "note": "the element conversions themselves are C31, C57"
  },
  {
   "property": "C80",
   "status": "partial",
   "theorems": [
    "C80_is_prime_partial",
    "C80_negated_prime",
    "C80_is_prime_refuted",
    "C80_prime_factorial_partial",
    "C80_prime_factorial_refuted",
    "C80_factorial_fibonacci",
    "C80_scientific_notation",
    "C80_scientific_notation_zero"
   ],
   "note": "is_prime and prime_factorial panic on the same magnitudes as the UBigInt versions (C17, C18); the panics are proved."
  },
  {
   "property": "C81",
   "status": "proved",
   "theorems": [
    "C81_exp2_accurate",
    "C81_too_large_panics",
    "C81_exact",
    "C81_inverse"
   ],
   "note": "against Rpower 2 of the standard library; every table entry is checked to be the floor of 2^(62+i/512)."
  },
  {
   "property": "C82",
   "status": "proved",
   "theorems": [
    "C82_sum_product"
   ],
   "note": "an iterator is the list it yields."
  },
  {
   "property": "C83",
   "status": "proved",
   "theorems": [
    "C83_cbrt_iter",
    "C83_zero",
    "C83_sign"
   ],
   "note": "the digits dropped between rounds limit the accuracy to 2^-127; arguments of 2^27 - 1 limbs or more are out of scope because log2_accurate is only proved below that"
  },
  {
   "property": "C84",
   "status": "proved",
   "theorems": [
    "C84_sqrt_error",
    "C84_tan_error",
    "C84_log_error",
    "C84_pow_error"
   ],
   "note": "domains as in C34, C37 and C58; the reduction exponent of ln_iter appears existentially, as in C37"
  },
  {
   "property": "C85",
   "status": "proved",
   "theorems": [
    "C85_far",
    "C85_total",
    "C85_to_string",
    "C85_accuracy"
   ],
   "note": "C85_far bounds the text by a factor of 20 over the rationals, without axioms; C85_accuracy sharpens this against the real logarithm. The bound 10 on the mantissa is inclusive, since 9.999993 and above is rounded up without a carry into the exponent."
  }
 ]
}