# Formal model of hmath: design

Source: /repo (crate `hmath`, Rust).  Model: `rocq/theories/` (Coq 8.16.1, logical name `Verif`).
The model is hand-written Gallina that follows the Rust text function by function; each definition cites
file and lines.  Nothing was compiled or run from /repo.

## Modelling conventions

* `res A = Ok a | Panic | NoFuel`.  `Panic` is every Rust panic of a debug build: arithmetic overflow/underflow,
  index out of bounds, division by zero, `unwrap`/`expect` on failure, shift >= width, `panic!`, `todo!`.
  `NoFuel` is an artefact of bounded unrolling of loops; theorems that conclude `= Ok v` exclude both.
  Because overflow is `Panic`, a theorem concluding `Ok` holds for debug and release builds alike.
* `u32/u64/u128/i32/i64/i128` values are `Z` with range hypotheses/invariants; every `+ - * <<` on machine words goes
  through a checked operation.  `as` casts are explicit `mod`.  `usize` lengths and indices are `nat` (no overflow of a
  length or index: a `Vec` can never hold 2^63 elements) with checked subtraction and checked indexing.
* `Vec<T>` is `list T`; `v[i]` is a checked read, `v[i] = x` a checked write.  `&mut self` functions return the new value.
* `for i in a..b` is a structural recursion on the number of iterations; `while`/`loop`/general recursion use the
  combinator `recn n F`, which unrolls `F` at most 2^n times; `n` is computed from the arguments and theorems show it
  is never exhausted.
* `UBigInt` is `list Z` (little endian base 2^32); `BigInt` is a record (magnitude, sign flag); `Ratio` is a record
  (denominator, numerator); `F192` is a record (digits: u128 with top bit sign, exp: u64).
* Strings are lists of characters (code points as `Z`/`N`); `f32`/`f64` are their bit patterns (`to_bits`/`from_bits`).
* `#[cfg(test)]` code, `rand`-feature functions, and trait-impl boilerplate macros that only forward are not modelled.
* `Err` payloads (message strings) are abstracted to an error constructor where they carry formatted text.

## Specifications

Independent of the model: `uval l = sum l_i * 2^(32 i)`, `uwf` (canonical), `bval`, `bwf`, `rval : Q` / cross products,
`rwf`, `fval` as dyadic rational; Z division, `Z.gcd`, `Z.sqrt`, `Z.log2`, `prime`, `fact`, sums over Q, Leibniz
determinant, etc.  A property theorem relates the modelled function's result to these.

## Plan per property

| Property | Modelled | Proof method |
|---|---|---|
| C01 C02 C03 C07 C08 C11 | UBigInt add/sub/compare/convert/shift, limb loops | loop invariants on prefixes of the limb list |
| C04 | schoolbook loops with u64 accumulators, Karatsuba recursion | invariant bounding accumulators; strong induction on length |
| C05 C06 | the whole quotient-estimate recursion; div_u32 loop; rem loops | estimate lemmas, induction on the dividend's value |
| C09 C10 | printers (chunk loops) and the parser automaton | induction on strings / limbs |
| C12 C13 C16 | pow, gcd, factorial, fibonacci loops | invariants |
| C14 C15 | sqrt_u64, UBigInt::sqrt, log2, log2_accurate | error analysis of the Newton step, invariants |
| C17 C18 | trial division | number theory (least divisor <= sqrt) |
| C19-C23 | BigInt layer | case analysis on signs over the UBigInt theorems |
| C24-C29, C33, C55 | Ratio layer | reduction to BigInt theorems, gcd lemmas |
| C30-C32 | ieee754 bit manipulation | Z bit arithmetic; refutations by computed witness |
| C34-C37 C54 C58 C59 | iteration functions (exp, ln, log, pow, sqrt, e, pi, ln2, sin, cos, tan, asin, acos, atan) | closed forms by induction over the loop; tables checked entry by entry against the series; angle reduction as exact quarter turns; real bounds via Coq Reals where stated |
| C38-C40 | Matrix (all of src/matrix) | closed-form loop states; polynomial identities by `ring` for sizes 2-4, Laplace induction above; determinant, Cramer's rule and Vandermonde transported to mathcomp matrices over `rat` |
| C41-C43 | Polynomial, interpolation | induction on coefficients; interpolation through the Vandermonde matrix |
| C60 | Complex addition (the only complete part of src/complex) | from the Ratio theorems |
| C44-C52 | F192: arithmetic, comparison, conversion, rounding, division by bisection | integer inequalities on mantissa/exponent; the bracketing tables of the division checked by a verified sweep; monotonicity of truncated multiplication for the bisection |
| C52 | 13 character code of F192 (independent specification in CSpec.v) | positional arithmetic in base 62; rounding bound |
| C61-C63 | from_pow2, ilog2, powi, sqrt of F192 | relative error invariants over Q; Newton's method in squares, no real numbers |
| C35-C37 C54 C58 C59 (errors) | the same functions against exp, ln, sin, cos, asin, acos, atan, PI of Coq's Reals | remainder estimates by comparing derivatives (RReal.v, RReal2.v), then the closed forms (RReal3.v, RReal4.v) |
| C64 | the mathematical constants of F192 | fixed point enclosures of the real constants; spacing of F192 numbers |
| C65-C67 | log2, ln, pow2, pow of F192 | rounding errors of every F192 operation as real inequalities (XErr.v); invariant `2^i log` of the bit by bit logarithm with its carry condition (XLog.v); Taylor remainder of exp with accumulated rounding (XPw.v) |
| C70-C72 | sin, cos, tan of F192 | one lemma per step of Horner's rule with its carry condition, applied along the three kernels (XTrig.v); exact fractional part, subtractions on a common grid for the reduction and the reflections, remainders of the Taylor series (XTrig2.v) |
| C73-C75 | asin, acos, atan of F192 | relative errors of the terms and absolute errors of the partial sums as loop invariants (XAtrig.v); runs that may panic are tracked by the predicate `nop`; remainders of the series from RReal.v and RReal2.v |
| C76 | FromStr of F192 (XTxt.v; specification of the texts in XTxtS.v) | the accumulator is an integer, exact below 2^128, then a relative error per chunk of six digits (XTxtP.v, XTxtQ.v); scanner lemmas (XTxtR.v, XTxtT.v, XTxtU.v) |
| C77 C78 C79 | texts of Polynomial and Matrix, generic constructors | specification readers in PTxtS.v; the pieces between spaces and the signed terms are tracked through the printing loop (PTxtP.v), then coefficients by degree (PTxtQ.v) |
| C80 | BigInt functions that forward to the magnitude | the UBigInt theorems C16-C18, C56 through `bmag` (Props_B2.v) |
| C81 | UBigInt::exp2_accurate | integer equation (UMoreP.v); the table by 128-bit interval arithmetic, the bisection by an invariant with one-sided errors, the last interval by the chord of a convex function (UExpR.v) |
| C83 | cbrt_iter | start value by C81 and the bounds of log2_accurate, Newton step on the relative error, truncation of both parts by shifts of a denominator and numerator above 2^128 (RCbrt.v model, RCbrtP.v, RCbrtR.v) |
| C84 | real errors of sqrt_iter, tan_iter, log_iter, pow_iter | quotient and product rules on the bounds of C34, C37 and C58 (Props_R8.v) |
| C85 | texts of Ratio of any size | invariant of the bisection in exp10, range of the mantissa, the exponent equals the estimate (RFmtV.v, Props_R9.v); the other layouts as in C69; the bisection against the real power of ten and 21306/70777 against log10 2 (RFmtW.v, Props_R10.v) |
| C82 | Sum and Product | induction over the list (UMoreP.v) |
| C68 C69 | texts of Ratio (RFmt.v) | bounds of the estimated decimal exponent (RFmtP.v), then each layout as a cut of the exact quotient (RFmtQ.v, RFmtR.v, RFmtS.v, RFmtU.v); the texts are read by the specification `rread` of the parser |
| C53 | both members of each pair | corollary of the exactness theorems |
| C57 | primitive integer conversions of UBigInt, BigInt, Ratio | case analysis on the twelve types |

Where the code violates a property, the theorem is a `_refuted` statement with a concrete witness, next to a theorem
giving the domain on which the property does hold.

## What is modelled

One Coq definition per function, each with its file and lines in a comment.

* src/ubigint: arithmetic, comparison, conversion, printing, parsing, pow, sqrt, log2, gcd, factorial, fibonacci, primes,
  scientific notation (UBig.v, UFun.v, UStr.v).
* src/bigint: everything of the same list (BBig.v).
* src/ratio: constructors, arithmetic, comparison, rounding, shrink, integer conversions (RBig.v), text conversion
  (RStr.v), f32/f64 conversions (RIeee.v), iteration functions and their tables (RIter.v, RTab.v), approximate texts (RFmt.v).
* src/matrix, src/poly, src/complex (MMat.v, PPoly.v).
* src/fp192: constants, sign, shifts, step, comparison, integer/float/Ratio conversions, add, sub, mul, mul_i32, div, div_i32,
  fast_log2, fast_pow2, truncate, floor, ceil, round, frac (XNum.v); powers, logarithms, sqrt, trigonometry, to_approx_string,
  code13 (XFun.v), from_str (XTxt.v).

Not modelled, hence not claimed: `sinh_iter/cosh_iter/tanh_iter`, `Polynomial::add/mul` (they are
`todo!()`), random generators,
`Hash`/`Debug` derives, error message texts.

## Trusted base

Coq's kernel, including its `vm_compute` conversion; the fidelity of the hand translation described above.
`Print Assumptions` runs under every property theorem during the build.  For every theorem outside the files named below its
answer is "Closed under the global context": no axiom, of the standard library or otherwise, is used.

The theorems about real numbers (Props_R5.v: C35_e_error, C36_pi_error, C36_ln2_error, C36_increasing, C37_exp_error,
C37_ln_error, C54_constants_error, C58_sin_cos_error, C59_asin_error, C59_acos_error, C59_atan_error, C64_*; Props_X4.v: C65_*, C66_*, C67_*; Props_X5.v: C70_*, C71_*, C72_*; Props_X6.v: C73_*, C74_*, C75_*; Props_U3.v: C81_exp2_accurate, C81_inverse; Props_R7.v: C83_cbrt_iter, C83_sign; Props_R8.v: C84_*; Props_R10.v: C85_accuracy) use Coq's Reals and
Coquelicot.  They depend on these axioms of Coq's standard library and on no others:

* `ClassicalDedekindReals.sig_forall_dec`
* `ClassicalDedekindReals.sig_not_dec`
* `FunctionalExtensionality.functional_extensionality_dep`
* `Classical_Prop.classic`

MDet.v and Props_M2.v load mathcomp.  `coqchk` therefore also lists the parameters of the module types inside mathcomp and
ssreflect (they are interface fields, not axioms); no theorem depends on any of them, as `Print Assumptions` shows.
