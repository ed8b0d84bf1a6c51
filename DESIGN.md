# Formal model of template-hls-float: design

All sources are cited relative to `/repo`. The tool is Coq 8.16.1 (logical root `Verif`, directory
`rocq/theories`).

## 1. How the code is modelled

* `fw_uint<W>` (default backend `fw_uint_on_masked_uint.hpp`) becomes a `Z` in `[0,2^W)`. The width template
  parameter is an explicit `Z` argument of every modelled operation, so every theorem ranges over *all* widths
  (the backend's `W<=128` static assertion only restricts which instances exist; nothing is assumed from it).
  That this abstraction is right for the real storage (a masked 32-, 64- or 128-bit word) is a theorem,
  `C34_word_level_agrees`, about the word-level model `FwWord.v`.
* Assertions and undefined behaviour are a distinct outcome: an operation which contains an `assert` that can depend
  on a width or on a value (integer constructor, `get_bits`, shifts, `checked_cast`, `to_int`) returns `option Z`, with
  `None` = "assertion fails / UB". Operators are written in the option monad, statement by statement after the
  C++ source, so "returns `Some r` and r is right" includes "no assertion fires".
* Template dispatch (`if(wE>s)`, partial specialisations) is ordinary `if`/`match` on the width arguments.
* `fp_flopoco<E,F>` is its bit pattern, a `Z` in `[0,2^(E+F+3))`; accessors slice it as the code does.
* Compile-time metaprograms (`ct_vec`, LCG skip, bit-heap type lists) become structurally recursive functions on
  the corresponding data (trees, lists of columns).

## 2. Specification (`Spec.v`, independent of the model)

* `fval` = NaN | Inf sign | Zero sign | Num sign m e, the last meaning `(-1)^sign * m * 2^e`.
* `rne_div n d`: nearest integer to `n/d`, ties to even. `round_pos F n d`: `n/d` rounded to `F+1` significant bits with
  unbounded exponent. `finish`: flush to zero / overflow to infinity by the exponent range of the format. Those define
  `mul_spec`, `add_spec`, `div_spec`, `convert_spec`. `SpecFlocq.v` proves that `round_pos` is Flocq's
  `round radix2 (FLX_exp (F+1)) ZnearestE` on real numbers, so the specification is anchored in an independent
  library and not only in our own integers.
* `decode E F bits : fval` gives the meaning of a bit pattern; a theorem reads
  `decode (op x y) = op_spec (decode x) (decode y)`.

## 3. Plan per property

| id | modelled | proof idea |
|----|----------|------------|
| C01 | `mul_v1` rounding branch, all widths | concatenated exponent/fraction integer `T` equals `(e)*2^F + rne - 2^F`; top two bits of `T mod 2^(E+F+2)` give its range |
| C02 | `mul_v1` exact branch | underflow writes NaN flags: `_refuted` with witness, `_partial` for no-underflow |
| C03 | `add_single` v1/v2 statement by statement. Finding: `shiftedOut` clamps the shift one place too far when the exponent difference is exactly wF+2, so a power of two minus such an operand is misrounded | alignment lemma with sticky bit, normalisation by leading-zero count, rounding lemma shared with C01 |
| C04 | `add_dual_v1` | close path and far path lemmas, then the same final lemma; `WidthProofs.v`: the exact set of formats of at most 128 bits, witnesses of failure by evaluation |
| C05 | shift assertions in both adders | `_refuted` for the widths that abort, positive theorem for the others (part of C03/C04) |
| C06 | `div_v1`: SRT radix-4 digit recurrence | invariant `|w| <= bound`, digit table covers every remainder (finite table lifted by arithmetic), rounding lemma |
| C07 | `inv_v1` | constant `cg<4>(0100)` is octal 64: every call fails the constructor assertion, `_refuted`; the function is modelled with the literal as a parameter, and is proved right at the intended value 4 (`_partial`) |
| C08 | `square` | corollary of C01 |
| C09 | `neg_v1` | bit-level |
| C10 | corollaries of C01/C03/C04 on the spec side | symmetry of the spec |
| C11 | six comparison functions incl. mixed formats | lexicographic order of `exp,frac`; `_refuted` for infinities with different payload, `_partial` for canonical payloads |
| C12 | same | boolean case analysis |
| C13 | `equals` | equality of decoded data |
| C14 | `nextup` | order embedding into Z |
| C15 | `nextdown` | `_refuted` (wrong fraction at binade boundary), `_partial` elsewhere |
| C16 | `promote` flopoco/flopoco, flopoco/IEEE | exponent re-bias arithmetic |
| C17 | `promote` IEEE/IEEE | `_refuted` (infinity becomes a finite number), `_partial` for normals |
| C18 | `convert` general | rounding lemma; `_refuted` for zero/NaN with all-ones payload, `_partial` otherwise |
| C19 | same-format IEEE conversions | field-wise |
| C20 | IEEE wrapper operators | compose C19 with C01/C04/C06; `WidthProofs.v`: the exact set of formats for the sum |
| C21 | `Fma.v`: `fma` as the composition of `convert`, `mul`, `add_fast`, `convert` | false: refuted for every F >= 3 with 2F+6 <= 2^E and for every F >= 1 where the wide adder is right (`FmaProofs5.v`); `_partial`: exact description as two roundings, and one rounding unless the first one is inexact and lands half way |
| C22 | `Dot.v`: `dot2_pos_rndd` and its input assertions | exact sum on integers scaled by 2^(exponent); truncation characterised by floor division; rejection by case split on the class |
| C23 | `Dot.v`: `dot4_pos_rndd` | false: refuted for every format with 3 <= E and 4F <= 3*2^(E-1)-2 by a family whose two shifted-out tails carry, and right for every operand in all others (so the formats are characterised exactly); `_partial`: error below 3 units of the 6F-bit sum, exact when at most one product is more than 4F-1 below the largest |
| C24, C25 | `Heap.v`: a heap is a list of columns (height, bits); build, merge, pad, shift, 3:2 compression, collapse. Finding: padding a heap that overflows its width changes its value, and so does merging heaps of different widths | weighted-sum invariant; the height bound (B+2)/3+(B+1)/3 decreases, and gives the number of levels 2, 3, 4, 6, 9, 13, ... |
| C26 | `Heap.v`: `bit_heap_mul` with its debugging output (which rejects a heap of one column) | induction over tiles |
| C27 | `Heap.v`: `row_heap` as the list of rows | full-adder identity by induction over bits; sum of rows modulo 2^W |
| C28, C29 | `Lcg.v`: the power-of-two and prime-modulus generators, their skips and state constructors | affine maps under composition, square-and-multiply induction; periods by modular arithmetic |
| C30, C31 | `CtVec.v`: the compile-time tree, its `read`, `write`, `swap`, `permute`, `unique`. Findings: indices are not checked and clamp to an end element; a tree with an empty part cannot be read at all; `unique` writes its sentinel one past the end | refinement to lists, `Permutation`, `StronglySorted`; `permute` is the Fisher-Yates shuffle and reaches every arrangement |
| C32 | `LutOpt.v`: permutation tables, tap selection, bit assembly, step | taps specified in `SpecCt.v` from shuffles of lists; XOR of taps, linearity, fan-in and fan-out; injectivity holds for one tap, `_refuted` in general |
| C33, C34 | `FwWord.v`: the masked machine word (32, 64 or 128 bits) under `fw_uint`, with its masks, wraparound, constructor assertions and undefined shifts; free functions on top. Finding: the empty slice `get_bits<W-1,W>` is undefined at W = 32, 64, 128, and `x | int` aborts at the largest value | modular arithmetic and `Z.testbit`; `C34_word_level_agrees` shows that `Fw.v` (used by all floating-point models) is exactly what the words compute |
| C35 | `FwWord.v`: `to_string`, the text constructor, mpz and uint64 conversions (GMP calls by their documented meaning) | induction over digits and limbs. Findings: a negative mpz is stored as its absolute value, decimal texts that overflow widths 32 and 64 saturate, width 0 rejects its own mpz |
| C36 | `FwPair.v`: the pair of 64-bit words | value hi*2^64+lo; all operators right except `*`: `_refuted`, `_partial` when no limb product overflows |
| C37 | `Fixval.v`: `fixval` types as (shift, low, high), values as 64-bit integers, overflow undefined; sum, product, shifts, union, conversion, select, `product`, `horner`. fixval.hpp does not compile as shipped (macros and namespace); read as meant. Findings: the variable shift leaves its range, the converting constructor never sets the value | exactness in Q, corner products by monotonicity, induction over the list; variable shift, conversion and select `_refuted` |
| C38 | `Fixval.v`: `ctFixCompare` and friends, `ctCheckedShiftLeft` | `_refuted` (compares vA with itself, always 0); `_partial` says when that is right |
| C39 | `InvNr.v`: `round_frac` with its three specialisations | `_refuted` at every width for two or more dropped bits (the sticky range stops one bit early); `_partial` when it is right, error bound 3/4; the rest positive |
| C40 | `InvNr.v`: `inv_table_newton`, `inv_direct`, their tables, starting values and Newton steps | special values positive, underflow `_refuted` for all widths (exponent wraps to the top binade) |
| C41 | `Dbl.v`: `to_double`, with IEEE doubles as a mathematical type (`SpecDbl.v`) | `_partial` for non-negative numbers; `_refuted` for every negative number and for the extreme binades of wE=11 |
| C42 | `AddSingleAlt.v`: versions 2 to 5 of the single-path adder; `Div.v`: both dividers | equality of models (v2, v3, v5); v4 `_refuted`, and its actual rounding rule (`SpecV4.v`) proved |
| C43 | `numeric_limits` in `Flopoco.v`, `Ieee.v`; its integral constants and epsilon() in `Limits.v`, against the standard's definitions in `SpecLimits.v` | order lemmas; the set of data of a format as mantissas times a range of exponents |
| C44 | `Mpfr.v`: the constructor from MPFR, `get`, and the same of `fp_ieee`, over the MPFR contract of `MpfrLib.v` | positive for wE <= 30, wF <= 128; directed rounding of negative values into a narrower number `_refuted`; 31 exponent bits `_refuted` |
| C45 | `within_1ulp` | case analysis |
| C46 | `fp_ieee::equals` | field-wise case analysis |
| C47 | `FwWord.v`: `random_fw_uint` on the list of generated words | induction over words |
| C48 | `FwWord.v`: `lut` | map over indices |
| C49 | `FwWord.v`: `thls_ctLog2Ceil` | induction; `_refuted` as a ceiling at powers of two |
| C50 | `Lcg.v`: full period of the shipped power-of-two generator | Hull-Dobell condition by induction over the exponent of two |
| C51 | `Lcg.v`: maximal period of the two shipped prime generators | order of the multiplier by trial factoring of M-1 and modular powers, all inside the kernel |
| C52 | `CtVec.v`: `create`, `create_rotation`, `for_each`, `map_reduce` | refinement to lists |
| C53 | `InvNr.v`; faithfulness stated in Q against every number of the format (`SpecInv.v`) | Newton error analysis over Z: table entries checked by computation for the six index widths that exist (5 to 10), convexity for all inputs, residual bound per step; `inv_direct` double rounding shown harmless; long inputs `_refuted` |
| C54 | `Mpfr.v`: `ref_mul/add/div/fma/square/inv/convert/neg/ldexp_const`, `fp_ieee` `ref_mul/add` | each is the exact result rounded once, by the MPFR contract plus the constructor theorem; formats may all differ |
| C55 | `Dbl.v`: the constructor from double | truncation for 1 <= wF <= 31; infinities, -0 and subnormals, and wF >= 32, `_refuted` |
| C56 | `Dbl.v`: `to_double_approx` of numbers and of `fw_uint` | nearest double (in Z, and against Flocq's FLT format); `fw_uint` above 64 bits `_refuted` (rounds twice) |
| C57 | `SpecFlocq.v`, `SpecReal.v`: the specification in terms of the reals | `rne_div`/`round_range` are shown equal to Flocq's `round radix2 (FLX_exp (F+1)) ZnearestE`, then the operator theorems are restated over R |
| C58 | `SoftFloat.v`: `f32_add`, `f32_mul`, `f64_add`, `f64_mul` with everything they call, generic in the format where the C files agree; C integer widths explicit, undefined shifts `None` | against `Spec754.v` (interchange formats with subnormals); significands carry a sticky bit ("jam"), one lemma says rounding only needs the jammed value |
| C59 | `SoftFloat.v`: the comparison functions and the six operators of `policy_softfloat.hpp` | order of words against order of values |
| C60 | `SoftFloat.v`: `softfloat_approxRecip32_1`, `f32_div`, `f64_div` | error bound of the reciprocal (table runs by computation, one polynomial inequality for the Newton step); quotient estimate within the window the correction step repairs; 2^16 top divisors by computation for binary32 |
| C61 | `SpecFlocq754.v`: `round754` is Flocq's FLT rounding; the SoftFloat theorems over R | |
| C62 | `SoftFloat.v`: constants of `numeric_limits<fp_softfloat32>` (NDEBUG) | computation; `max`, `lowest`, `epsilon`, `quiet_NaN` `_refuted` |
| C63 | `App.v`: `fp_flopoco_wrapper` and the `to<>` conversions of policy_flopoco.hpp; `sum` and `dot_product` of src/examples, arrays as lists | `SpecApp.v`: accumulation in order, one rounding per operation; then the standard forward error bound over R by induction over the list, and a condition excluding overflow |
| C64 | `App.v`: `mat_mul` (any size N for 16) and `dot_product_par4` with the full, round and SoftFloat traits of sweep_types.hpp | as C63, cell by cell; the single-path adder enters through its error bound 2^-F (`C03_add_single_error`). Configurations with a wider accumulator exponent `_refuted`: they stop at an assertion |
| C65 | `Policy.v`: `check_operator`, the pairwise test of policy_test.hpp, and the policies for FloPoCo, IEEE on FloPoCo, float, double and SoftFloat | `SpecPolicy.v`: nine operators, and when they are right. The test accepts a list without NaN iff they are right on every pair, for any operators; a list with NaN `_refuted` |
| C66 | `Policy.v`: `make_input` (the random numbers a parameter) and `test_arithmetic` | the inputs are evaluated symbolically for every format; then C65 and the operator theorems. `_partial`: at most 136+4F inputs; beyond that `_refuted` by the draw 0/0; narrow formats `_refuted` (exception) |
| C67 | `Hls.v`: the back ends of fw_uint over ac_int and ap_uint, over the contract `HlsInt.v`; the functions of fw_uint.hpp once, over any back end | each operation equals its arithmetic value for every width of at least one bit, hence the software model up to 128 bits; the functions from six laws both back ends satisfy. Construction from mpz, zero widths, empty top slices `_refuted` |
| C68 | `Adders.v`: the adder programs of src/fp_ops/mp/compressor (chain, bit heap, row heap) and test_bit_heap_mul.cpp | from the heap invariants of C25 and C26, plus a bound on the height of a product's heap by its number of tiles; the multiplier program's own constant `_refuted` (it does not fit the width, so the program aborts) |
| C69 | `Source.v`: fp_flopoco_random_test_source, the uniform draw a parameter (a rational) | class intervals by case analysis on the enumeration; onto by C10's generator lemmas. A draw of zero delivers a disabled class: `_refuted` |
| C70 | `RefDot.v`: the reference functions and self-tests beside the dot products; doubles rounded to nearest even, MPFR by its contract | rounding a two-term sum to a double and then down equals rounding it down once, by the gap between bits the sum leaves; the self-test by induction on its rounds; the inverted check of the exhaustive test, wide exponents and far apart products `_refuted`; below six fraction bits the four-term sum in doubles stays within a few units of a double and no such sum straddles a grid point; the four-term self-test accepts exactly when the dot product is right on what it draws, which the listed operands of eight of its fourteen formats `_refuted` |
| C71 | `Tests.v`: the operands (make_input.hpp) and the comparison loops of the test programs of the multipliers, dividers, adders, fma, conversion and reciprocals; MPFR by its contract; messages not modelled | the list of operands is characterised for every draw; each comparison is shown equivalent to a relation between values (equal, next to, within one place), the loops by induction; the library's operations then pass by their own theorems; the tests that let wrong functions through and the out-of-bounds read `_refuted` |
| C72 | `Composite.v`: the function templates of src/fp_ops/mp/fp/composite over a scalar type given by its default value, its zero, + and *; instances for the FloPoCo wrapper, IEEE arithmetic and exact integers | loops over indices turned into folds over the array, then C63's error analysis; the matrix products' index r*i+c `_refuted` for every size from two on, uninitialised accumulators and missing conversions `_refuted` |
| C73 | `Circuit.v`: the operations of fw_uint as data, and what each does on machine words (C33's model), ap_uint and ac_int (C67's models); `CircuitMul.v`, `CircuitAdd.v`, `CircuitDiv.v`, `CircuitCmp.v`, `CircuitDual.v`, `CircuitDot.v`: mul_v1, promote, add_single, div_v1, add_dual_v1, fma, dot2_pos_rndd, dot4_pos_rndd, the comparisons, convert and neg_v1 again, operation by operation in the order of the source | on operands in range each operation has one value on every back end; every operation the operators perform is in range, by walking the sequence; run on the plain semantics the sequences are the models of C01, C03, C04, C06, C09, C11, C18, C21, C22 and C23, so their theorems carry over |
| C74 | no new model: the operators of C03, C04, C01, C06, C18, C16, C09, C14, C21 and C20, with the comparisons of C11 | `OrderProofs.v`: the rounded value depends monotonically on the real number (Flocq's `round_le`), infinities and zeros by cases; `OrderSingle.v`: the single-path adder's exception returns a power of two that its neighbours do not cross; the rest by the operators' own theorems |
| C75 | no new model: the operators of C04, C01, C06, C18, C21, C09, C20 and the constants of C12 | `ExactProofs.v`–`ExactProofs3.v`: a number of the format is its own rounding; a nonzero number has one word; Flocq's `sterbenz` and `mult_bpow_exact_FLX` |
| C76 | three client programs in `SpecErrFree.v`, not in the repository | `ErrFreeProofs.v`: operands that are multiples of 2^emin stay so, hence rounding without subnormals agrees with Flocq's `FLT` rounding; then Flocq's `Fast2Sum_correct`, `TwoSum_correct` and `mult_error_FLX`; `ErrFreeReal.v`: no intermediate result of the two sums exceeds the largest number when the sum does not; `ErrFreeProofs2.v` puts both together |
| C77 | no new model: the SoftFloat functions of C58–C60; two client programs in `SpecSf754.v`, not in the repository | `SfReal1.v`–`SfReal4.v`: rounding with subnormal numbers is monotone and a finite word is its own rounding; the difference of two words is a multiple of the smallest subnormal number; Flocq's `sterbenz`, `Fast2Sum_correct`, `TwoSum_correct`; `ErrFreeReal.v` (C76) for the intermediate results at the top of the range |
| C78 | no new model: the operators of C09 and the SoftFloat functions of C58–C60; words described in `SpecFtz.v` | `FtzProofs.v`: the two roundings of one exact number differ only below the smallest normal number; `FtzProofs2.v` lifts this to words |
| C79 | `SelfTest.v`: the two self-test programs as functions of the sequence of draws, with CHECK, exceptions and the MPFR comparisons; draws described in `SpecSelf.v` | `SelfTestProofs.v`: rounding a draw keeps its binade up to one, so constructor, get, to_double and ref_mul return the same number |
| C80 | `Cores.v`: the templates of src/fp_ops/mp/fp/primitive (Findings: the mul and div templates do not link as shipped; of the 1090 formats, 986 single-path, 135 dual-path and 133 IEEE adders are wrong for some operands) and the formats its CMakeLists.txt instantiates; "right" in `SpecCores.v` | `CoresProofs.v`: the theorems about the multiplier, dividers, adders (C01-C06, C42) and IEEE wrappers where they apply; elsewhere a witness computed from the format, checked by evaluation over the finite set of formats. The dual-path proof was generalised to operands with a smallest exponent (`dual_ok_from`) for the IEEE adder |
| C81 | no new model: the SoftFloat functions of C58–C60, with `propagateNaN`; the rule for NaNs in `SpecNan.v` | `NanProofs.v`: quiet bit and payload as fields of a word, `propagateNaN` against the rule by cases; `NanProofs2.v`: the branches of each function that return NaN, uniqueness of the other words, commutativity. The sign of a NaN without payload against an infinity `_refuted` |
| C82 | no new model: `convert`, `mul`, `div`, `add_dual` of C01–C18 in two formats at once | `WideProofs.v`: rounding twice equals rounding once unless the first rounding is inexact and lands half way; products of 2F+2 bits are exact, a sum of more bits is close to a narrow number, a quotient close to half way leaves too small a remainder; `WideProofs2.v`: the operations, and the counterexample with one bit less |
| C83 | `SfPrim.v`: primitives.h's inline functions and the portable .c files, shifts by too much undefined; specification in `SpecPrim.v` (integers, quotients, remainders) | `SfPrimProofs.v`: shifts of two words through division with remainder by 2^d and 2^(64-d); `SfPrimProofs2.v`: the 256 table entries evaluated, carries identified with quotients, the reciprocal from the error analysis of C60. Partial: 2.008 units instead of 2.006 |
| C84 | `SfConfig.v`: the significand computations of the branches not selected, put into the functions of C58–C60 | `SfConfigProofs.v`: each returns a significand that rounds to the same value, so the words agree by C58–C60, C81 and the uniqueness of words; the remainder of f32_div halved; the contract of the reciprocal implies the bounds the proof of C60 uses |
| C85 | `Traits.v`: the flags of the specialisations; `SpecTraits.v`: what each says of the set of values | `TraitsProofs.v`: one argument for the three families from the range of significands and exponents; the SoftFloat types' is_iec559 `_refuted` |
| C86 | `HeapTests.v`: the two test programs, with the heap functions as arguments; `SpecHeapSum.v`: sums in any order | `HeapTestsProofs.v`: induction on the shape of the sum with the totals and heights of C24, C25; the loops print nothing; with an adder off by one they print and return 0 (`_refuted`) |
| C87 | `Intval.v`: intval, the int64_t shift, callN; `SpecIntval.v`: programs over ranged integers | `IntvalProofs.v`: induction on the program: its type is the range of interval arithmetic and holds its value |
| C88 | `SoftFloatMode.v`: the functions of C58–C60 with the rounding mode and the macro SOFTFLOAT_ROUND_ODD as arguments; `Spec754Mode.v`: rounding in six directions; `SpecFlocq754Mode.v`: Flocq's | `SfmProofs1.v`–`SfmProofs4.v`: one lemma for the increment of all modes, then the argument of C58–C60; `SpecFlocq754Mode.v`: round754m is Flocq's rounding in the FLT format |
| C89 | `Mpfr.v`: `ref_sqrt` over the contract of `mpfr_sqrt` | `SqrtProofs.v`: an irrational root lies strictly between consecutive integers of two more bits than the result, so the sticky bit rounds as the root; then the constructor theorem of C44 |
| C90 | `Flopoco.v`: `get_equality_class`; `Dbl.v`: `fl_nextafter` | `ClassProofs.v`: by the three top bits; nextafter from C14 and C15, with a value strictly between for every operand C15 leaves out |
| C91 | the functions of C88; `SpecEnclose.v`: at most / at least a real number, tightest enclosure | `EncloseProofs.v`: floor and ceiling in the FLT format bracket the exact result, with the overflow cases; the upward mode is the downward one of the opposite; `EncloseProofs2.v`: the four corners of an interval product |
| C92 | `SoftFloatFlags.v`: the functions of `SoftFloat.v` again, returning with the word the flags they pass to softfloat_raiseFlags; `SpecFlags.v`: the exceptions of IEEE 754 over the exact real result | `FlagProofs1.v` to `FlagProofs5.v`: the flags of rounding decided by the exact sum, product or quotient; dropping the flags gives the functions of `SoftFloat.v`, so C58 and C60 apply to the same word; a tiny sum is exact |
| C93 | the functions of C92; `SpecFlagTells.v` | `FlagTells.v`: rounding with and without the exponents of the format agree on overflow, and on whether the least normal number is reached; then C58, C60, C61 and C92 |
| C94 | `SoftFloatFlagsMode.v`: the functions of C92 with the rounding mode and SOFTFLOAT_ROUND_ODD as parameters; `SpecFlagsMode.v`: the exceptions of IEEE 754 with the rounding of the mode | `FlagmProofs1.v` to `FlagmProofs5.v`, as for C92; dropping the flags gives the functions of `SoftFloatMode.v`, so C88 applies to the same word; `FlagmNear.v`: in the default mode they are the functions of C92 |
| C95 | the functions of C94; `SpecStdModel.v`: unit roundoff, standard model | `StdModel.v`: Flocq's relative error with an unbounded exponent, its absolute error below the least normal number, and between the two a number that reaches the least normal one by rounding; then C88 and C94 |
| C96 | the functions of C88 and the comparisons of C59 | `ModeOrder.v`: rounding in a mode is monotone, and so is what an overflow becomes; a number of the format is rounded to itself; then C88 |

## 4. Trusted base

* Coq's kernel and `vm_compute`.
* `Print Assumptions` under each theorem: "Closed under the global context" for every theorem outside `PropsReal.v`,
  `PropsSoftFloatReal.v`, `PropsApp.v`, `PropsComposite.v`, `PropsOrder.v`, `PropsExact.v`, `PropsErrFree.v`, `PropsSfModeReal.v`, `PropsEnclose.v`, `PropsFlags.v`, `PropsFlagTells.v`, `PropsFlagsMode.v`, `PropsStdModel.v`, `PropsModeOrder.v`, `PropsSqrt.v` and `PropsSfOrder.v`. The theorems of those that speak of real numbers (C57_*, C56_nearest_real, C61_*,
  C03_add_single_error, C63_* and C64_* except C63_sum_value and C64_wider_exponent_refuted, C72_sum_array, C72_dot_product, C72_sum_vec4,
  C72_dot_product_u2, C72_sum_vec4_float, C72_mmm_value, and C74_* except C74_operator_le_is_sound, C74_promote and the refutations, C75_*, C76_*, C77_*, C88_*_real, C89_* except C89_special, C91_*, C92_*, C93_*, C94_*, C95_*, C96_*) list at most four axioms, all of the standard library:
  `ClassicalDedekindReals.sig_forall_dec`, `ClassicalDedekindReals.sig_not_dec`,
  `FunctionalExtensionality.functional_extensionality_dep` and `Classical_Prop.classic`. Flocq adds none.
* My reading of the C++ (the code was not run).
* For C44, C54, C56, C65, C66, C70, C71, C89 and C57_ref_fma only: `MpfrLib.v`, the documented behaviour of the MPFR functions the code calls (correct rounding in
  the given mode at the destination's precision, signs of zero, default exponent range), and `MpfrRange.v` (the same with the exponent range `mpfr_set_emin/emax` set by the native policies, and
  `mpfr_check_range`, `mpfr_subnormalize`, as documented). MPFR itself is not modelled.
* For C67 and C73 only: `HlsInt.v`, the integer types `ac_int` and `ap_uint` as their manuals describe them.

## 5. Not modelled

* The `cpp_int` back end of `fw_uint` (its file starts with `#error`), HLS synthesis; of the synthesis back ends, decimal and
  hexadecimal texts, which they hand to the library.
* SoftFloat: what softfloat_raiseFlags would do with the flags (it is empty in this copy; C92 and C94 model its calls) and functions only declared. `fp_softfloat32` compiles only with `THLS_SYNTHESIS` (it declares
  constructors under another name); its `mul`, `add`, `div` are the modelled functions.
* Files that do not compile (`#error` or ill-typed): `fp_flopoco_fp2fix.hpp`, `fp_flopoco_dot2_pos_rndn.hpp`,
  `fp_flopoco_div_v3.hpp`, `compressor_tree.hpp`, `float_acc.hpp`, `carry_select_adder.hpp`,
  `fp_flopoco_ldexp_const_v1.hpp`, `composite_dot.hpp`, `fp_concepts.hpp`, `device.hpp`, `core/ct_helpers.hpp` (select_c), `core/ct_bigint*.hpp`, `functions/rom.hpp`, `types/tupleval.hpp`,
  `fp_sum_array_u2.cpp`, `fp_sum_vec4_left.cpp`.
* The reference functions for the elementary functions (`ref_log`, `ref_exp`, `ref_pow`): MPFR's transcendental functions.
* Debug printing (`DEBUG` parameters), I/O, the distribution of std::uniform_real_distribution.

`Inst.v` and `InstR.v` hold only tactics: `Example T_at := T arguments ltac:(hyp) …` beside a theorem T is T at concrete
arguments, and compiles only if these meet all hypotheses of T.
