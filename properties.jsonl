{"id": "C01", "title": "UBigInt results are canonical", "statement": "Every UBigInt returned by an arithmetic or conversion function on canonical arguments is canonical (at least one limb, no superfluous leading zero limb), so two results denote the same number exactly when `==` says so.", "quantifier": "all canonical UBigInt arguments of any length, all u32/usize scalar arguments", "why_tests_cant": "canonicity can break on one carry or borrow pattern at one length; tests sample a few lengths", "anchors": ["src/ubigint/arith/add.rs: UBigInt::add, add_mut, add_u32_mut", "src/ubigint/arith/sub.rs: UBigInt::sub_mut", "src/ubigint/arith/mul.rs: UBigInt::mul", "src/ubigint/arith/div.rs: UBigInt::div", "src/utils.rs: remove_suffix_0"]}
{"id": "C02", "title": "UBigInt addition is exact", "statement": "add, add_mut, add_u32 and add_u32_mut never panic on canonical numbers and yield the exact mathematical sum.", "quantifier": "all pairs of canonical UBigInts, all u32", "why_tests_cant": "carry chains of every length and position", "anchors": ["src/ubigint/arith/add.rs: UBigInt::add, add_mut, add_u32, add_u32_mut", "src/utils.rs: v32_to_v64, v64_to_v32"]}
{"id": "C03", "title": "UBigInt subtraction is exact and panics exactly on underflow", "statement": "sub/sub_mut/sub_u32/sub_u32_mut return the exact difference when other <= self and panic when other > self; abs_diff and abs_diff_u32 return |a-b| and never panic.", "quantifier": "all pairs of canonical UBigInts, all u32", "why_tests_cant": "borrow chains of every length; the panic contract is about every pair", "anchors": ["src/ubigint/arith/sub.rs: UBigInt::sub, sub_mut, sub_u32, sub_u32_mut, abs_diff, abs_diff_u32"]}
{"id": "C04", "title": "UBigInt multiplication is exact at every size", "statement": "mul/mul_mut/mul_u32/mul_u32_mut/mul_pow2/mul_pow2_mut return the exact product, on the schoolbook path and on the recursive Karatsuba path, without any intermediate overflow or underflow and with the recursion terminating.", "quantifier": "all pairs of canonical UBigInts of any length, all u32 multipliers and exponents", "why_tests_cant": "the code switches algorithm at 64 limbs and recurses; intermediate u64 accumulation overflow depends on length", "anchors": ["src/ubigint/arith/mul.rs: UBigInt::mul, mul_mut, mul_u32, mul_u32_mut, mul_pow2, mul_pow2_mut"]}
{"id": "C05", "title": "UBigInt division is Euclidean division", "statement": "For a non-zero divisor div/div_mut terminate without panicking and return the floor of the quotient, and rem/rem_mut return the remainder 0 <= r < divisor with self = q*divisor + r; for a zero divisor they panic.", "quantifier": "all pairs of canonical UBigInts of any length", "why_tests_cant": "the quotient estimate recursion has many branches depending on limb values near 2^32 and relative lengths", "anchors": ["src/ubigint/arith/div.rs: UBigInt::div, div_mut, div_approx", "src/ubigint/arith/rem.rs: UBigInt::rem, rem_mut"]}
{"id": "C06", "title": "UBigInt division and remainder by a u32", "statement": "div_u32/div_u32_mut return the floor quotient and rem_u32 the remainder for every non-zero u32 divisor; rem_pow2 agrees with the remainder for powers of two; rem_u32_mut agrees with rem_u32.", "quantifier": "all canonical UBigInts, all u32 divisors", "why_tests_cant": "word overflow only shows for large divisors and several limbs", "anchors": ["src/ubigint/arith/div.rs: UBigInt::div_u32, div_u32_mut", "src/ubigint/arith/rem.rs: UBigInt::rem_u32, rem_u32_mut, rem_pow2"]}
{"id": "C07", "title": "UBigInt comparison is the numeric order", "statement": "lt, gt, leq, geq, eq, neq, comp (Ord) and all their _u32 forms agree with the order of the denoted naturals, hence form a total order consistent with equality.", "quantifier": "all pairs of canonical UBigInts, all u32", "why_tests_cant": "order laws quantify over all pairs/triples", "anchors": ["src/ubigint/comp.rs: UBigInt::lt, gt, leq, geq, eq, neq, comp, lt_u32, gt_u32, eq_u32, leq_u32, geq_u32, comp_u32"]}
{"id": "C08", "title": "Fixed-width conversions of UBigInt are exact and total on range", "statement": "from_u32/u64/u128 yield the canonical number with the same value; to_u32/u64/u128 return Ok of the same value when it fits and Err otherwise, never panicking; converting there and back is the identity.", "quantifier": "all u32, u64, u128 values; all canonical UBigInts", "why_tests_cant": "boundary behaviour for every width", "anchors": ["src/ubigint/convert.rs: from_u32, to_u32, from_u64, to_u64, from_u128, to_u128", "src/ubigint/convert/into.rs: TryFrom<&UBigInt> for u8..usize"]}
{"id": "C09", "title": "UBigInt printing and parsing round-trip in four bases", "statement": "from_string applied to the output of to_string_dec, to_string_hex(true), to_string_oct(true), to_string_bin(true) returns the original number; printed digit strings denote the number in the base and have no superfluous leading zero.", "quantifier": "all canonical UBigInts", "why_tests_cant": "zero padding of inner chunks fails only for specific digit patterns", "anchors": ["src/ubigint/convert.rs: from_string, to_string_dec, to_string_hex, to_string_oct, to_string_bin"]}
{"id": "C10", "title": "UBigInt parsing computes the written value and rejects malformed text without panicking", "statement": "from_string never panics; whenever it accepts, the result is the value of the digits (underscores ignored) in the base chosen by the prefix; it rejects the empty string and any string containing a foreign character; strings of the documented grammar are accepted.", "quantifier": "all strings", "why_tests_cant": "infinite input space; internal u32 buffer must not overflow for any length or base", "anchors": ["src/ubigint/convert.rs: UBigInt::from_string"]}
{"id": "C11", "title": "Limb shifts and slices", "statement": "shift_left(n)/shift_right(n) multiply/floor-divide by 2^(32n), slice_right(n) is the residue modulo 2^(32n) for n up to the limb count and panics above; mutating versions agree; results are canonical.", "quantifier": "all canonical UBigInts, all n", "why_tests_cant": "length/zero boundary combinations", "anchors": ["src/ubigint/funcs/shift.rs: shift_left, shift_left_mut, shift_right, shift_right_mut, slice_right, slice_right_mut"]}
{"id": "C12", "title": "Integer powers are exact", "statement": "pow_u32 returns self^exp (0^0 = 1), pow2(exp) and exp2(n) return powers of two; for every exponent the API accepts.", "quantifier": "all canonical bases, all u32 exponents", "why_tests_cant": "the square-and-multiply bookkeeping in u32 must hold for all exponents", "anchors": ["src/ubigint/arith/pow.rs: pow_u32, pow_u32_mut, pow2", "src/ubigint/funcs/exp.rs: exp2", "src/bigint/arith/pow.rs"]}
{"id": "C13", "title": "gcd is the greatest common divisor", "statement": "gcd_ubi and gcd_bi terminate and return the greatest common divisor (non-negative, gcd(0,n)=n); gcd_i32 likewise for all i32 but the minimum.", "quantifier": "all pairs of canonical numbers", "why_tests_cant": "Euclid's loop over unbounded numbers", "anchors": ["src/ubigint/funcs.rs: gcd_ubi", "src/bigint/funcs.rs: gcd_bi", "src/utils.rs: gcd_i32"]}
{"id": "C14", "title": "Integer square root is the floor square root", "statement": "UBigInt::sqrt returns r with r^2 <= n < (r+1)^2 for every n, terminating without panic; BigInt::sqrt is the same on magnitude keeping sign.", "quantifier": "all canonical UBigInts", "why_tests_cant": "Newton iteration and correction loops; u64 overflow near the top of the range", "anchors": ["src/ubigint/funcs.rs: UBigInt::sqrt, sqrt_u64", "src/bigint/funcs.rs: BigInt::sqrt"]}
{"id": "C15", "title": "Integer logarithms", "statement": "log2 returns floor(log2 n) (0 for 0); log2_accurate returns a lower bound of 2^32*log2(n).", "quantifier": "all canonical UBigInts", "why_tests_cant": "all lengths", "anchors": ["src/ubigint/funcs/log.rs: log2, log2_accurate, log2_u32"]}
{"id": "C16", "title": "factorial and fibonacci", "statement": "factorial(n) = n! and fibonacci(n) = F(n) for every u32 n, across the table, word and big-number paths.", "quantifier": "all u32 n", "why_tests_cant": "path switches and buffer flushing; unbounded n", "anchors": ["src/ubigint/funcs.rs: factorial, fibonacci"]}
{"id": "C17", "title": "is_prime decides primality", "statement": "is_prime(n) is true exactly when n is a prime.", "quantifier": "all canonical UBigInts", "why_tests_cant": "infinitely many inputs; trial division limit off-by-one shows only at squares of primes", "anchors": ["src/ubigint/funcs.rs: is_prime", "src/bigint/funcs.rs: BigInt::is_prime"]}
{"id": "C18", "title": "prime_factorial returns the prime factorisation", "statement": "the product of the returned list is n and every element is prime (for n >= 2), in non-decreasing order.", "quantifier": "all canonical UBigInts >= 2", "why_tests_cant": "large cofactors overflow the u32 trial divisor", "anchors": ["src/ubigint/funcs.rs: prime_factorial"]}
{"id": "C19", "title": "BigInt ring operations are exact and keep zero non-negative", "statement": "add, sub, mul, neg, abs and their _mut, _i32 and _pow2 forms return the exact integer and never a negative zero.", "quantifier": "all canonical BigInts, all i32 scalars", "why_tests_cant": "sign case analysis across all relative magnitudes", "anchors": ["src/bigint/arith/add.rs", "src/bigint/arith/sub.rs", "src/bigint/arith/mul.rs", "src/bigint/funcs.rs: neg, abs"]}
{"id": "C20", "title": "BigInt division truncates toward zero", "statement": "div/rem (and _mut, _i32) satisfy a = q*b + r, |r| < |b|, r has the sign of a (or is 0), exactly Rust's primitive semantics; panic iff the divisor is zero.", "quantifier": "all pairs of canonical BigInts, all i32", "why_tests_cant": "sign combinations x sizes", "anchors": ["src/bigint/arith/div.rs", "src/bigint/arith/rem.rs"]}
{"id": "C21", "title": "BigInt comparisons agree with the integer order", "statement": "lt, gt, leq, geq, eq, neq, comp and the _i32 forms agree with the order on integers and never panic.", "quantifier": "all pairs of canonical BigInts, all i32", "why_tests_cant": "the i32 forms convert and unwrap; fails only for big operands", "anchors": ["src/bigint/comp.rs"]}
{"id": "C22", "title": "BigInt fixed-width conversions", "statement": "from_i32/i64/i128/ubi are exact for every value; to_i32/i64/i128/to_ubi return Ok of the exact value iff it fits.", "quantifier": "all i32,i64,i128; all canonical BigInts", "why_tests_cant": "MIN values", "anchors": ["src/bigint/convert.rs: from_i32, to_i32, from_i64, to_i64, from_i128, to_i128, from_ubi, to_ubi"]}
{"id": "C23", "title": "BigInt printing and parsing round-trip", "statement": "from_string(to_string_{dec,hex,oct,bin}(n)) = n for every n, and from_string of '-' followed by digits is the negation.", "quantifier": "all canonical BigInts, all strings", "why_tests_cant": "infinite input space", "anchors": ["src/bigint/convert.rs: from_string, to_string_dec, to_string_hex, to_string_oct, to_string_bin"]}
{"id": "C24", "title": "Ratio results are in lowest terms", "statement": "Every Ratio produced from canonical arguments has positive denominator, coprime numerator and denominator, and 0 is 0/1; hence == is numeric equality.", "quantifier": "all canonical Ratios / BigInts", "why_tests_cant": "one missing reduction breaks equality for particular common factors", "anchors": ["src/ratio/../ratio.rs: Ratio::fit", "src/ratio/convert.rs: from_denom_and_numer, from_denom_and_numer_i32", "src/ratio/arith/*.rs"]}
{"id": "C25", "title": "Ratio arithmetic is exact rational arithmetic", "statement": "add, sub, mul, div, neg, abs, reci, pow_i32 and all _bi/_i32/_mut forms return the exact rational result (field laws follow).", "quantifier": "all canonical Ratios, BigInts, i32 (non-zero divisors)", "why_tests_cant": "algebraic laws over all rationals", "anchors": ["src/ratio/arith/add.rs", "src/ratio/arith/sub.rs", "src/ratio/arith/mul.rs", "src/ratio/arith/div.rs", "src/ratio/arith/pow.rs", "src/ratio/funcs.rs: neg, abs, reci"]}
{"id": "C26", "title": "Division of a Ratio by zero panics uniformly", "statement": "div, div_bi, div_i32, reci and their _mut forms panic on a zero divisor rather than produce an ill-formed number.", "quantifier": "all canonical Ratios", "why_tests_cant": "an absence-of-bad-value property", "anchors": ["src/ratio/arith/div.rs", "src/ratio/funcs.rs: reci", "src/ratio/convert.rs: from_denom_and_numer"]}
{"id": "C27", "title": "Ratio comparisons agree with the rational order", "statement": "lt, gt, leq, geq, eq, neq, comp, lt_one, gt_one and the _i32 forms agree with the order on rationals and never panic.", "quantifier": "all pairs of canonical Ratios, all i32", "why_tests_cant": "order laws over all pairs; _i32 forms panic only on large operands", "anchors": ["src/ratio/comp.rs"]}
{"id": "C28", "title": "Ratio rounding functions", "statement": "truncate/floor/round (half away from zero)/frac/truncate_and_frac return what they say: truncate toward zero, floor the greatest integer <= x, |x - round x| <= 1/2, x = truncate + frac; is_integer decides integrality.", "quantifier": "all canonical Ratios", "why_tests_cant": "sign x halfway combinations", "anchors": ["src/ratio/funcs.rs: truncate, truncate_bi, frac, truncate_and_frac, floor, floor_bi, round, round_bi"]}
{"id": "C29", "title": "Ratio text round trips", "statement": "from_string accepts '<n>/<d>', integers, decimals and scientific notation and returns exactly the written value; from_string(to_ratio_string(x)) = x.", "quantifier": "all canonical Ratios; all strings of the grammar", "why_tests_cant": "infinite input space", "anchors": ["src/ratio/convert.rs: from_string, to_ratio_string"]}
{"id": "C30", "title": "Floats convert to Ratio exactly", "statement": "from_ieee754_f32/f64 return exactly the value of every finite float (normal, subnormal, signed zero) and the right error for inf/nan; inspect_ieee754 returns neg, exp, frac describing it.", "quantifier": "all 2^32 f32 and all 2^64 f64 bit patterns", "why_tests_cant": "2^64 inputs", "anchors": ["src/ratio/convert/ieee754.rs: from_ieee754_f32, from_ieee754_f64, inspect_ieee754_f32, inspect_ieee754_f64"]}
{"id": "C31", "title": "Ratio to float stays within one unit in the last place and respects the range", "statement": "to_ieee754_f32/f64 return a float adjacent to the exact value and an error (not infinity or NaN) when the value is out of range.", "quantifier": "all canonical Ratios", "why_tests_cant": "rounding carry at the top of a binade, overflow boundary", "anchors": ["src/ratio/convert/ieee754.rs: to_ieee754_f32, to_ieee754_f64"]}
{"id": "C32", "title": "Float -> Ratio -> float is the identity", "statement": "to_ieee754(from_ieee754(x)) = x for every finite float other than -0 (which gives +0).", "quantifier": "all finite f32/f64 bit patterns", "why_tests_cant": "2^64 inputs", "anchors": ["src/ratio/convert/ieee754.rs"]}
{"id": "C33", "title": "shrink approximates within its documented budget", "statement": "Ratio::shrink(limit) returns Err(0) for limit < 3; otherwise the result is a canonical ratio with bounded limb count close to the original, or the value is unchanged.", "quantifier": "all canonical Ratios, all limits", "why_tests_cant": "limb-size dependent branches", "anchors": ["src/ratio.rs: Ratio::shrink"]}
{"id": "C34", "title": "sqrt_iter converges", "statement": "sqrt_iter(x, k)^2 approximates x with a relative error that vanishes as k grows; the result is non-negative for x >= 0.", "quantifier": "all canonical non-negative Ratios, all k", "why_tests_cant": "for-all k error bound", "anchors": ["src/ratio/funcs/root.rs: sqrt_iter"]}
{"id": "C35", "title": "e_iter(k) is the partial sum of 1/n! up to n = 19+k", "statement": "e_iter(k) equals the sum of 1/n! for n <= 19+k, increases with k and stays below e with error at most 1/((19+k)!*(19+k)).", "quantifier": "all k", "why_tests_cant": "for-all k", "anchors": ["src/ratio/e.rs: e_iter"]}
{"id": "C36", "title": "pi_iter and ln2_iter are truncations of their series", "statement": "pi_iter(k) equals the BBP partial sum it tabulates, ln2_iter(k) equals the partial sum of its series; both panic only beyond their tables, are increasing and within the tail bound of the constant.", "quantifier": "all k within the tables", "why_tests_cant": "table typos in one of 255/205 entries; real-analysis bounds", "anchors": ["src/ratio/pi.rs: pi_iter", "src/ratio/ln2.rs: ln2_iter"]}
{"id": "C37", "title": "exp_iter / ln_iter evaluate the announced series", "statement": "exp_iter(x,k) equals the Taylor-based value the doc promises and exp_iter(0,k) = 1; ln_iter reduces its argument exactly; pow_iter and log_iter are built from them.", "quantifier": "all canonical Ratios, all iter counts", "why_tests_cant": "for-all x and k", "anchors": ["src/ratio/funcs/exp.rs: exp_iter", "src/ratio/funcs/ln.rs: ln_iter, log_iter", "src/ratio/funcs/pow.rs: pow_iter"]}
{"id": "C38", "title": "Matrix sums, products and transposes obey matrix algebra", "statement": "add, mul, mul_k, transpose return the entrywise definition; dimension mismatches give Err and never panic; mul is associative, identity is neutral, transpose reverses products; _mut forms agree.", "quantifier": "all well-formed matrices of any dimensions", "why_tests_cant": "for-all dimensions", "anchors": ["src/matrix.rs: Matrix::add, add_mut, mul, mul_k, mul_k_mut, transpose, identity, generate"]}
{"id": "C39", "title": "determinant is the determinant", "statement": "determinant returns Err on empty or non-square input and otherwise the Laplace/Leibniz determinant for every size (explicit formulas for 2,3,4 and recursion above).", "quantifier": "all square rational matrices of any size", "why_tests_cant": "hand-expanded 4x4 formula; all sizes", "anchors": ["src/matrix/det.rs: determinant, determinant_2_by_2, determinant_3_by_3, determinant_4_by_4", "src/matrix/utils.rs: minor, cofactor"]}
{"id": "C40", "title": "inverse is a two-sided inverse", "statement": "inverse returns Err when the determinant is 0 and otherwise a matrix whose product with the argument is the identity.", "quantifier": "all square rational matrices of any size", "why_tests_cant": "hand-expanded adjugates; all sizes", "anchors": ["src/matrix/inv.rs: inverse", "src/matrix/utils.rs: adjugate"]}
{"id": "C41", "title": "Polynomial evaluation and differentiation", "statement": "calc(x) is the value of the polynomial at x (Horner); differentiate is the formal derivative; mul_k scales; from_vec strips leading zeros without changing the function; newton_method returns x - p(x)/p'(x).", "quantifier": "all coefficient lists, all x", "why_tests_cant": "for-all degrees", "anchors": ["src/poly.rs: from_vec, from_vec_generic, calc, differentiate, differentiate_mut, mul_k, newton_method"]}
{"id": "C42", "title": "Interpolation passes through the points", "statement": "from_points returns the unique polynomial of degree < n through n points with distinct abscissae and Err when two abscissae coincide.", "quantifier": "all finite point lists", "why_tests_cant": "for-all n", "anchors": ["src/poly/from_points.rs: from_points"]}
{"id": "C43", "title": "Closed-form interpolation formulas", "statement": "linear_2_points, quadratic_3_points pass through their points and cubic_2_points matches the two values and two slopes for distinct abscissae.", "quantifier": "all rationals", "why_tests_cant": "for-all rationals", "anchors": ["src/poly/from_points.rs: linear_2_points, quadratic_3_points, cubic_2_points"]}
{"id": "C44", "title": "F192 ordering agrees with values", "statement": "cmp/partial_cmp on F192 is the order of the denoted dyadic rationals, total and consistent with ==; neg, abs, is_zero, is_neg act on values; step_epsilon gives the adjacent number of larger magnitude.", "quantifier": "all F192 bit patterns", "why_tests_cant": "2^192 inputs", "anchors": ["src/fp192/comp.rs", "src/fp192/../fp192.rs: neg, abs, shl, shr, step_epsilon, is_integer"]}
{"id": "C45", "title": "F192 addition and subtraction", "statement": "add/sub never lose more than one unit in the last place of the larger operand, are exact for equal exponents within range, commutative, x+0=x, x-x=0.", "quantifier": "all F192 pairs away from exponent overflow", "why_tests_cant": "2^384 inputs", "anchors": ["src/fp192/arith/add.rs", "src/fp192/arith/sub.rs"]}
{"id": "C46", "title": "F192 multiplication error bound", "statement": "mul returns a value not exceeding the exact product in magnitude with relative error below a few units of 2^-127; sign is the product of signs; x*0=0, x*1=x.", "quantifier": "all F192 pairs away from exponent overflow", "why_tests_cant": "2^384 inputs", "anchors": ["src/fp192/arith/mul.rs: mul, mul_i32"]}
{"id": "C47", "title": "F192 division", "statement": "div terminates and returns the smallest representable x with trunc(divisor*x) >= dividend in magnitude; div_i32 returns the truncated quotient; division by zero panics.", "quantifier": "all F192 pairs away from exponent overflow", "why_tests_cant": "bisection over 2^192 inputs", "anchors": ["src/fp192/arith/div.rs: div, div_i32", "src/fp192/funcs/ln.rs: fast_log2", "src/fp192/funcs/pow.rs: fast_pow2"]}
{"id": "C48", "title": "F192 integer conversions", "statement": "from u128/i128 etc. are exact; to_u128/to_i128 truncate toward zero, and Err out of range, never panicking.", "quantifier": "all u128/i128 values; all F192", "why_tests_cant": "2^192 inputs", "anchors": ["src/fp192/convert.rs: from_u128, from_i128, to_u128, to_i128"]}
{"id": "C49", "title": "F192 <-> Ratio", "statement": "Ratio::from(F192) is the exact value; F192::from(Ratio) is the nearest representable value.", "quantifier": "all F192; all canonical Ratios", "why_tests_cant": "rounding carries", "anchors": ["src/fp192/convert.rs: From<&F192> for Ratio, From<&Ratio> for F192"]}
{"id": "C50", "title": "F192 <-> f32/f64", "statement": "F192::try_from(f32/f64) is exact for finite floats and Err otherwise; converting back yields the same float.", "quantifier": "all float bit patterns", "why_tests_cant": "2^64 inputs", "anchors": ["src/fp192/convert.rs: TryFrom<f32>, TryFrom<f64>, From<F192> for f32, f64"]}
{"id": "C51", "title": "F192 rounding functions", "statement": "truncate, floor, ceil, round, frac return the mathematically defined value for every F192.", "quantifier": "all F192", "why_tests_cant": "2^192 inputs", "anchors": ["src/fp192/funcs.rs"]}
{"id": "C52", "title": "code13 serialisation round-trips", "statement": "from_code13(into_code13(x)) is a fixed approximation of x (idempotent) and never panics on arbitrary bytes.", "quantifier": "all F192 in range, all byte strings", "why_tests_cant": "62^13 strings", "anchors": ["src/fp192/convert/string.rs: into_code13, from_code13"]}
{"id": "C53", "title": "Mutating and value-returning methods agree", "statement": "For every `op`/`op_mut` pair of UBigInt, BigInt and Ratio the mutating call leaves in place exactly what the value-returning call returns, and both panic on the same inputs.", "quantifier": "all canonical arguments", "why_tests_cant": "for-all inputs; several pairs are implemented by different algorithms", "anchors": ["src/ubigint/arith", "src/bigint/arith", "src/ratio/arith"]}
{"id": "C54", "title": "Pre-computed constants equal the iteration they document", "statement": "pi_const() = pi_iter(7), e_const() = e_iter(15), ln2_const() = ln2_iter(11).", "quantifier": "closed statement over unbounded-precision evaluation", "why_tests_cant": "(it is also a test; listed because the doc states it and later bounds use it)", "anchors": ["src/consts.rs", "src/ratio/pi.rs", "src/ratio/e.rs", "src/ratio/ln2.rs"]}
{"id": "C55", "title": "Ratio to integer conversions truncate and range-check", "statement": "TryFrom<Ratio> for each primitive integer returns the truncated value iff it is in range.", "quantifier": "all canonical Ratios", "why_tests_cant": "boundaries for 12 types", "anchors": ["src/ratio/convert/into.rs"]}
{"id": "C56", "title": "UBigInt scientific notation shows the leading digits", "statement": "to_scientific_notation(max) never panics and prints d.ddd e exp where exp is floor(log10 n), the digits are the truncated leading digits of n (exact to min(max,11) digits), at most max digits, first digit non-zero, no trailing zero; zero prints 0e0.", "quantifier": "all canonical UBigInts, all max >= 1", "why_tests_cant": "the digit loop depends on magnitude classes (over 8 limbs, over 2 limbs, word size) and on every digit pattern", "anchors": ["src/ubigint/convert.rs: UBigInt::to_scientific_notation, _to_scientific_notation"]}
{"id": "C57", "title": "Primitive integer conversions are exact and range-checked", "statement": "TryFrom<BigInt>/TryFrom<UBigInt> for each of the twelve Rust integer types returns the value iff it lies in the type's range and Err otherwise; From<integer> for BigInt and Ratio keeps the value, for every value of the type.", "quantifier": "all BigInt/UBigInt values, all twelve primitive types, all values of the primitive", "why_tests_cant": "The boundary values of twelve types times all multi-limb numbers cannot be enumerated; the failing values (minimum of the type, 2^32 for usize) are single points.", "anchors": ["src/ubigint/convert/into.rs:36-80", "src/bigint/convert/into.rs:42-80", "src/bigint/convert/from.rs:59-95", "src/ratio/convert/from.rs:60-94"]}
{"id": "C58", "title": "sin_iter / cos_iter / tan_iter reduce the angle exactly and evaluate the announced series", "statement": "For every x and k <= 255 there is an integer j and an angle y with x = j*(P/2) + y, |y| <= P/4, P = pi_iter(k), such that sin_iter and cos_iter return the sine/cosine series of y with 2k+2 terms, turned by j quarter turns; tan_iter is their quotient; beyond the table of pi they panic.", "quantifier": "all canonical Ratios, all k", "why_tests_cant": "eight octants and unbounded multiples of pi; exactness of the reduction for every rational", "anchors": ["src/ratio/funcs/trigo.rs: sin_iter, cos_iter, tan_iter, sin_iter_worker, cos_iter_worker"]}
{"id": "C59", "title": "asin_iter / acos_iter / atan_iter evaluate the announced series", "statement": "asin_iter(x,k) is the Taylor sum of asin with k+2 terms for |x| <= 1 and panics outside; acos_iter is pi/2 minus it; atan_iter is the Taylor sum with 2k+2 terms for |x| <= 1 and +-pi/2 minus the sum of 1/x outside.", "quantifier": "all canonical Ratios, all k", "why_tests_cant": "coefficient recurrence uses wrapping casts that only fail after hundreds of iterations", "anchors": ["src/ratio/funcs/atrigo.rs: asin_iter, acos_iter, atan_iter"]}
{"id": "C60", "title": "Complex addition is componentwise and exact", "statement": "add and add_mut return the exact componentwise sum in canonical form; add_i32 and add_i32_mut add to the real part only.", "quantifier": "all complex numbers with rational parts, all i32", "why_tests_cant": "for-all arguments", "anchors": ["src/complex/arith/add.rs: add, add_mut, add_i32, add_i32_mut", "src/complex/convert.rs"]}
{"id": "C61", "title": "F192 from_pow2 and ilog2 are exact and inverse", "statement": "from_pow2(n) is exactly 2^n; ilog2(x) is the integer k with 2^k <= x < 2^(k+1); ilog2(from_pow2(n)) = n; ilog2 panics on zero and negative numbers.", "quantifier": "all n whose power is representable, all positive F192", "why_tests_cant": "2^63 exponents", "anchors": ["src/fp192/funcs/pow.rs: from_pow2", "src/fp192/funcs/ln.rs: ilog2"]}
{"id": "C62", "title": "F192 powi has a relative error linear in the exponent", "statement": "powi(a,n) has the sign of a^n, is never above |a|^n for n >= 0 and at most 2n*2^-125 of it below; for n < 0 never below |a|^n and at most (4|n|+10)*2^-125 of it above; zero to a negative power panics.", "quantifier": "all F192, all n for which a^n stays in the exponent range", "why_tests_cant": "error accumulation over recursive squaring for all bases and exponents", "anchors": ["src/fp192/funcs/pow.rs: powi, powi_abs"]}
{"id": "C63", "title": "F192 sqrt is accurate to 2^-120", "statement": "sqrt(x)^2 is within 2^-120 of x relatively for positive x; zero and negative numbers give zero; the integer square root used for the first guess is accurate to 2.3e-12.", "quantifier": "all positive F192", "why_tests_cant": "the first guess loses its top bit only for significands within 2^-38 of the top", "anchors": ["src/fp192/funcs/sqrt.rs: sqrt, isqrt"]}
{"id": "C64", "title": "The F192 constants are correctly rounded", "statement": "PI, PI_OVER_2, PI_OVER_3, PI_OVER_4, PI_OVER_6, E, SQRT_2, SQRT_3, SQRT_10, ONE_OVER_SQRT_2, LN_2, LN_3 and LN_10 are each the F192 nearest to the real number they name.", "quantifier": "all F192 values as competitors", "why_tests_cant": "the tests compare with the crate's own series or with decimal strings of 45 digits; a wrong last bit needs a proof against the real number", "anchors": ["src/fp192/consts.rs"]}
{"id": "C65", "title": "F192 log2 and ln are close to the real logarithm", "statement": "log2(x) is within 2^-118 + 2^-127 |log2 x| and ln(x) within 2^-118 + 2^-124 |ln x| of the real logarithm; log2 of numbers >= 1 is not negative; zero and negative numbers panic. Logarithms just above -2^k, k >= 8, are excepted: there the sum rounds up to a power of two and turns positive.", "quantifier": "all positive F192 with exponents below 2^31 in magnitude", "why_tests_cant": "the tests compare a few logarithms with the crate's own constants; the exceptional bands are 2^-118 wide", "anchors": ["src/fp192/funcs/log.rs: log2_iter, log2, ln"]}
{"id": "C66", "title": "F192 pow2 is close to the real power of two", "statement": "pow2(x) is within 2^-48 relatively of 2^x, exact at integers; for -2^-129 <= x < 0 the result is wrong.", "quantifier": "all F192 of magnitude up to 2^40", "why_tests_cant": "the failing inputs are tinier than any test input, the error of the cut off series needs the remainder of exp", "anchors": ["src/fp192/funcs/pow.rs: pow2"]}
{"id": "C67", "title": "F192 pow is close to the real power", "statement": "pow(a, x) is within 2^-47 relatively of a^x.", "quantifier": "all bases from one up to 2^(2^20) with exponents in [0, 2^18]; other positive bases with conditions", "why_tests_cant": "the error of the logarithm is multiplied by the exponent before it enters the exponential; a handful of tests cannot show the bound", "anchors": ["src/fp192/funcs/pow.rs: pow"]}
{"id": "C68", "title": "Ratio::to_scientific_notation prints the number cut toward zero", "statement": "to_scientific_notation(max) returns a sign, at most max digits without superfluous trailing zeros, the letter e and the exponent of the leading digit. The text denotes the number cut toward zero behind 16 to 19 digits, or max digits if that is less. Numbers whose two parts both exceed 128 bits are first approximated to within 2^-96. Zero prints as 0e-17.", "quantifier": "all ratios other than zero with parts below 2^27 limbs, all max >= 1", "why_tests_cant": "the number of digits is guessed from a scaled logarithm that may be off by one either way; only a proof covers every power of ten and every denominator", "anchors": ["src/ratio/convert.rs: to_scientific_notation"]}
{"id": "C69", "title": "Ratio::to_approx_string and Display print the number cut toward zero within the length asked for", "statement": "With M = max(max_len, 6): to_approx_string(max_len) returns a text that denotes the number cut toward zero at some decimal place. Numbers between 2*10^-(M-2) and 10^(M-2)/2 are printed in plain digits using at most M characters, cut at the last place that fits. Numbers from 2*10^(M-2) up and from 10^-(M-2)/2 down are printed with the exponent of the leading digit, longer than M only when the exponent leaves no room for two digits. Parsing the text gives the printed number. to_string is to_approx_string(12). Zero prints as 0; a tiny negative number may print as -0.", "quantifier": "all ratios with parts below 2^27 limbs and magnitude between 2*10^-9991 and 10^9991/2, all max_len", "why_tests_cant": "three layouts are selected by an estimated logarithm and each has its own off by one hazards; tests look at a few numbers", "anchors": ["src/ratio/convert.rs: to_approx_string, to_string, fmt", "src/ratio/convert.rs: from_string"]}
{"id": "C70", "title": "F192 sin is close to the real sine", "statement": "sin(x) is within 2^-73 + 2^-122 |x| of the real sine of the number x denotes, whatever the quadrant; for |x| <= 0.7 it is within 2^-74 |x|, so tiny arguments keep their relative accuracy. Not claimed: arguments whose sine is within 2^-79 + 2^-122 |x| of +-2^61/20!.", "quantifier": "all F192 with exponents up to 2^27 in magnitude, and zero", "why_tests_cant": "the argument is reduced modulo 2 pi, reflected up to three times and fed to one of three polynomials; the errors of each branch add up for every argument, tests sample a few", "anchors": ["src/fp192/funcs/trigo.rs: sin, sin_iter, sin_near_pi_over_4"]}
{"id": "C71", "title": "F192 cos is close to the real cosine", "statement": "cos(x) is within 2^-73 + 2^-122 |x| of the real cosine of the number x denotes, except where the cosine is within 2^-79 + 2^-122 |x| of +-2^61/20!; there the result can be wrong: for one x near 0.3246 cos(x) is -0.4739 instead of 0.9478.", "quantifier": "all F192 with exponents up to 2^27 in magnitude, and zero", "why_tests_cant": "the failing arguments are three neighbouring bit patterns; the bound sums rounding errors over all branches", "anchors": ["src/fp192/funcs/trigo.rs: cos, cos_iter"]}
{"id": "C72", "title": "F192 tan is close to the real tangent", "statement": "With d = 2^-73 + 2^-122 |x| and |cos x| >= 4 d, tan(x) is within 3 d / cos(x)^2 of the real tangent, outside the bands excepted for sin and cos.", "quantifier": "all F192 with exponents up to 2^27 in magnitude, and zero", "why_tests_cant": "near the poles the error of the cosine is amplified; the amplification has to be bounded for every argument", "anchors": ["src/fp192/funcs/trigo.rs: tan"]}
{"id": "C73", "title": "F192 asin is close to the real arc sine, or panics", "statement": "For -1 <= x <= 1/sqrt 2 asin(x) either panics or is within 0.145 |x|^33 + 2^-114 |x| of the real arc sine and has the sign of x; outside of that interval it panics. The panic inside does happen (an argument near 0.5296), and asin(-1) is off by 0.14.", "quantifier": "all F192 with exponents up to 2^25 in magnitude, and zero", "why_tests_cant": "the panic depends on the low digits of the argument and the error grows with the 33rd power of the argument; sample points show neither", "anchors": ["src/fp192/funcs/atrigo.rs: asin, asin_near_one"]}
{"id": "C74", "title": "F192 acos is close to the real arc cosine, or panics", "statement": "For -1 <= x <= 1/sqrt 2 acos(x) either panics or is within 0.145 |x|^33 + 2^-114 |x| + 2^-124 of the real arc cosine; outside of that interval it panics.", "quantifier": "all F192 with exponents up to 2^25 in magnitude, and zero", "why_tests_cant": "the final subtraction from pi/2 must never lose its carry, for any value of the arc sine", "anchors": ["src/fp192/funcs/atrigo.rs: acos"]}
{"id": "C75", "title": "F192 atan is close to the real arc tangent away from bad partial sums", "statement": "With r = |x| or 1/|x| above 1: for |x| <= 1/sqrt 2 or |x| >= 1.42, if no partial sum of an even number of terms of the series at r is within 2^-110 relatively of a power of two, atan(x) is within r^33/33 + 2^-113 min(|x|,1) of the real arc tangent; in particular if 1.3 * 2^E <= r <= (1 - 2^-20) 2^(E+1) for an integer E. Elsewhere the code can fail: atan(x) is -0.24998 for one x near 0.5463, and atan panics for 1/sqrt 2 < |x| <= 1.414.", "quantifier": "all F192 with exponents up to 2^25 in magnitude, and zero", "why_tests_cant": "one argument in about 2^120 makes a subtraction round up to a power of two with a flipped sign; no test hits it", "anchors": ["src/fp192/funcs/atrigo.rs: atan, atan_near_one"]}
{"id": "C76", "title": "F192 from_str reads decimal and prefixed texts", "statement": "For a text sign, integer part, fraction, exponent with at most 39 digits, denoting D*10^E with |E| <= 2^32, from_str either panics or returns a number within (4|E|+12)*2^-125 relatively of the denoted one; it is the denoted one when E = 0 and D < 2^128 or 0 <= E <= 27 and D < 2^64; with at most 29 digits it does not panic. Digits beyond the 39th are dropped. Texts below 10^(-2^48) are zero. Texts with a prefix 0x, 0o, 0b are read from below, exactly up to 114 bits. Only these texts are accepted; a malformed exponent is TryFromIntError. Elsewhere the code fails: a 31 digit integer panics, 0.(39 zeros)1 is read as 0, -0x10 is read as 16.", "quantifier": "all strings", "why_tests_cant": "the error bound and the absence of panics concern every digit sequence; the panicking texts are one in billions", "anchors": ["src/fp192/convert/string.rs: from_str, pow10, pow10_worker"]}
{"id": "C77", "title": "The text of a Polynomial denotes the polynomial", "statement": "Reading the text of to_ratio_string as a sum of terms gives, for every k, exactly the coefficient of x^k; degrees fall strictly and no zero term is printed (the zero polynomial is 0). The text of to_approx_string gives every coefficient cut toward zero at a decimal place as Ratio::to_approx_string promises.", "quantifier": "all polynomials with coefficients of fewer than 2^27 limbs; to_approx_string: coefficients between 2*10^-9991 and 10^9991/2 in magnitude, or zero", "why_tests_cant": "the placement of signs, omitted ones and omitted zero terms concerns every pattern of coefficients", "anchors": ["src/poly.rs: to_ratio_string, to_approx_string, to_string"]}
{"id": "C78", "title": "The text of a Matrix lists its exact entries", "statement": "Reading the text of to_ratio_string by brackets and commas gives the rows of the matrix with their exact entries; different matrices have different texts.", "quantifier": "all matrices with entries of fewer than 2^27 limbs, also empty ones and ones with empty rows", "why_tests_cant": "unambiguity is a statement about all pairs of matrices", "anchors": ["src/matrix.rs: to_ratio_string"]}
{"id": "C79", "title": "Generic constructors and exports convert every element", "statement": "Matrix::from_vec_generic, Polynomial::from_vec_generic and from_points_generic are their Ratio versions on the converted entries; Polynomial::to_vec_f32/f64 return the conversions of all coefficients or panic exactly when one fails; Complex::from_real_and_imag and try_from_real_and_imag keep both parts and the first error.", "quantifier": "all element types with an exact conversion, all lists", "why_tests_cant": "quantifies over all element types and lengths", "anchors": ["src/matrix.rs: from_vec_generic", "src/poly.rs: from_vec_generic, to_vec_f32, to_vec_f64", "src/poly/from_points.rs: from_points_generic", "src/complex/convert.rs: from_real_and_imag, try_from_real_and_imag"]}
{"id": "C80", "title": "BigInt number theory and scientific notation", "statement": "BigInt::is_prime decides primality of the absolute value (so -7 counts as prime); prime_factorial returns ascending non-negative primes whose product is the absolute value; factorial and fibonacci are the mathematical functions; to_scientific_notation writes a minus sign exactly for negative numbers, then the leading digits and exponent of the absolute value.", "quantifier": "all canonical BigInts, all u32 arguments", "why_tests_cant": "unbounded integers; negative arguments are not tested", "anchors": ["src/bigint/funcs.rs: BigInt::is_prime, prime_factorial, factorial, fibonacci", "src/bigint/convert.rs: BigInt::to_scientific_notation"]}
{"id": "C81", "title": "UBigInt::exp2_accurate", "statement": "exp2_accurate(n) is 2^(n/2^32) rounded to an integer, with relative error at most 2^-30 besides the rounding, exact for multiples of 2^32; it inverts log2_accurate exactly below 2^29; arguments of at least 2^96 panic.", "quantifier": "all canonical UBigInts", "why_tests_cant": "an error bound against the real power for every argument; the 513-entry table is only sampled by tests", "anchors": ["src/ubigint/funcs/exp.rs: UBigInt::exp2_accurate, EXP_TABLE", "src/ubigint/funcs/log.rs: UBigInt::log2_accurate"]}
{"id": "C82", "title": "Sum and Product of UBigInts", "statement": "Summing or multiplying an iterator of UBigInts gives the canonical form of the sum (product) of the values; 0 and 1 for the empty iterator.", "quantifier": "all finite sequences of canonical UBigInts", "why_tests_cant": "any length and size", "anchors": ["src/ubigint/arith.rs: Sum::sum, Product::product"]}
{"id": "C83", "title": "cbrt_iter converges to the cube root", "statement": "cbrt_iter(x, k) never panics and returns a canonical Ratio whose relative distance to the real cube root of x is at most 2^-(9*2^k+1) + 2^-127; it keeps the sign of x and maps 0 to 0.", "quantifier": "all canonical Ratios whose parts have fewer than 2^27 - 1 limbs, all k", "why_tests_cant": "an error bound against the real cube root for every argument and number of rounds; tests compare a few cubes", "anchors": ["src/ratio/funcs/root.rs: cbrt_iter", "src/ubigint/funcs/exp.rs: UBigInt::exp2_accurate"]}
{"id": "C84", "title": "sqrt_iter, tan_iter, log_iter and pow_iter approximate the real functions", "statement": "sqrt_iter(x,k) is within a relative 1.5/2^(16(k+1)) of the real square root; tan_iter(x,k) is within 2e/((|cos x|-e)|cos x|) of tan x where e is the error of cos_iter, while e < |cos x|; log_iter(b,x,k) differs from ln x/ln b by at most (e_x + |ln x/ln b| e_b)/(|ln b|-e_b) with e the errors of ln_iter; pow_iter(a,b,k) is a^b up to the factor exp(|b| e_a) and the errors of exp_iter.", "quantifier": "all canonical Ratios of fewer than 2^27 limbs in the stated domains, all k within the tables", "why_tests_cant": "error bounds against real functions for every argument and number of rounds", "anchors": ["src/ratio/funcs/root.rs: sqrt_iter", "src/ratio/funcs/trigo.rs: tan_iter", "src/ratio/funcs/ln.rs: log_iter", "src/ratio/funcs/pow.rs: pow_iter"]}
{"id": "C85", "title": "every Ratio has a text, also beyond 10^9990", "statement": "to_approx_string, to_string and Display return for every Ratio; the text begins with a minus exactly for negative numbers, then a digit. Beyond 10^9993 and below 2*10^-9993 it is sign, a mantissa between 1 and 10 with at most three decimal places, the letter e and an exponent, and denotes a number within a factor of 20 of the argument; more precisely its logarithm differs from that of the argument x by at most 1/400 + |ln |x||/4000000000.", "quantifier": "all canonical Ratios of fewer than 2^27 limbs, all max_len below 2^63", "why_tests_cant": "absence of panics in the estimated logarithm, the bisection of exp10 and the narrowing casts for every number, most of them far too large to enumerate", "anchors": ["src/ratio/convert.rs: to_approx_string", "src/ratio/convert.rs: exp10", "src/ratio/convert.rs: to_string"]}
